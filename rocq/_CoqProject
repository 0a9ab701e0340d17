-Q theories Verif

theories/Base.v
theories/Value.v
theories/Headers.v
theories/AttrPath.v
theories/Ctx.v
theories/CelProps.v
theories/CelEval.v
theories/Sse.v
theories/Body.v
theories/Wire.v
theories/ValueBytes.v
theories/Tasks.v
theories/Exec.v
theories/Config.v
theories/Legacy.v
theories/Blueprint.v
theories/Factory.v
theories/Filter.v
theories/P_Frame.v
theories/Demo.v
theories/Prop_Headers.v
theories/Prop_Paths.v
theories/P_Utf8.v
theories/Prop_Attrs.v
theories/P_Apply.v
theories/P_Exec.v
theories/P_Run.v
theories/P_Inv.v
theories/P_Ids.v
theories/P_Plan.v
theories/P_Order.v
theories/P_Deps.v
theories/DemoCfg.v
theories/Prop_Order.v
theories/P_Term.v
theories/P_Bar.v
theories/P_Cfg.v
theories/P_Hist.v
theories/Prop_Term.v
theories/P_Grow.v
theories/Prop_Guard.v
theories/P_Wake.v
theories/Prop_Wake.v
theories/P_Fail.v
theories/Prop_Fail.v
theories/P_Head.v
theories/P_Told.v
theories/P_Eff.v
theories/Prop_Eff.v
theories/P_Rid.v
theories/Prop_Rid.v
theories/P_Route.v
theories/Prop_Route.v
theories/P_Sse.v
theories/Prop_Sse.v
theories/Prop_Body.v
theories/CelStr.v
theories/Prop_Str.v
theories/P_Scope.v
theories/P_Blind.v
theories/Prop_Scope.v
theories/P_Eval.v
theories/P_Props.v
theories/Prop_Eval.v
theories/Root.v
theories/P_Root.v
theories/Prop_Root.v
theories/Spans.v
theories/Prop_Spans.v
theories/Conv.v
theories/Prop_Conv.v
theories/Prop_Conv2.v
theories/Prop_Conv3.v
theories/CelSyn.v
theories/P_CelSyn.v
theories/Prop_Syn.v
theories/Prop_Syn2.v
theories/Prop_Reply.v
theories/P_Wire.v
theories/P_F64.v
theories/Prop_Export.v
theories/Prop_Writes.v
theories/Deploy.v
theories/Prop_Call.v
theories/Prop_Deploy.v
theories/Prop_Decode.v
theories/Prop_Know.v
theories/Prop_See.v
theories/P_Fed.v
theories/Prop_Fed.v
theories/Serde.v
theories/Prop_Serde.v
theories/Prop_Pass.v
theories/Prop_Trace.v
theories/Tracing.v
theories/Prop_Tracing.v
theories/P_Verdict.v
theories/Prop_Verdict.v
theories/Prop_Legacy.v
theories/Prop_Later.v
theories/Prop_Part.v
theories/Prop_Host.v
theories/Proto.v
theories/ReplayLib.v
theories/Replay.v
theories/P_Proto.v
theories/Prop_Proto.v
theories/Prop_Proto2.v
theories/Prop_Hold.v
theories/Prop_Vm.v
theories/P_Wait.v
theories/Prop_Wait.v
theories/P_Last.v
theories/Prop_Last.v
theories/Prop_Alone.v
theories/Prop_Seek.v
theories/Prop_Reader.v
theories/Prop_Same.v
