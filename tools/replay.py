#!/usr/bin/env python3
"""Generates rocq/theories/Replay.v from the integration tests of the repository
(crates/wasm-shim/tests/*.rs) and its vendored protobuf files.  The output is committed;
building the proofs does not need this script."""
import glob, os, re, sys
REPO = sys.argv[1] if len(sys.argv) > 1 else '/repo'
TESTS = REPO + '/crates/wasm-shim/tests'
PROTO = REPO + '/vendor-protobufs'

# ---------------------------------------------------------------- protobuf
def strip_comments(s):
    out, i = [], 0
    while i < len(s):
        if s[i] == '"':
            j = i + 1
            while s[j] != '"': j += 2 if s[j] == '\\' else 1
            out.append(s[i:j+1]); i = j + 1
        elif s.startswith('//', i):
            i = s.find('\n', i) if '\n' in s[i:] else len(s)
        elif s.startswith('/*', i): i = s.index('*/', i) + 2
        else: out.append(s[i]); i += 1
    return ''.join(out)
def toks(s): return re.findall(r'"(?:\\.|[^"])*"|[A-Za-z_.][\w.]*|-?\d[\w.]*|[{}()\[\]<>=;,:]', s)
SCALARS = dict(bool='FBool', int32='FInt32', sint32='FSint32', sfixed32='FSfixed32', int64='FInt64', sint64='FSint64',
  sfixed64='FSfixed64', uint32='FUint32', fixed32='FFixed32', uint64='FUint64', fixed64='FFixed64', float='FFloat',
  double='FDouble', string='FString', bytes='FBytes')
messages, enums, services = {}, {}, {}
class P:
    def __init__(s, t): s.t, s.i = t, 0
    def peek(s): return s.t[s.i]
    def next(s): s.i += 1; return s.t[s.i-1]
    def block(s):            # skip a balanced {...}
        d = 0
        while True:
            x = s.next()
            if x == '{': d += 1
            if x == '}':
                d -= 1
                if d == 0: return
    def semi(s):
        d = 0
        while True:
            x = s.next()
            if x in '{[(': d += 1
            if x in '}])': d -= 1
            if x == ';' and d == 0: return
def parse_file(path):
    p = P(toks(strip_comments(open(path).read())))
    pkg = ''
    while p.i < len(p.t):
        x = p.next()
        if x == 'package': pkg = p.next(); p.next()
        elif x == 'message': message(p, pkg)
        elif x == 'enum': enum(p, pkg)
        elif x == 'service': service(p, pkg)
        elif x == 'extend':
            p.next(); p.block()
        else:
            p.i -= 1; p.semi()
def enum(p, scope):
    name = scope + '.' + p.next(); assert p.next() == '{'
    nums = []
    while True:
        x = p.next()
        if x == '}': break
        if x in ('option', 'reserved'): p.semi(); continue
        assert p.next() == '='; nums.append(int(p.next(), 0)); p.semi()
    enums[name] = nums
def service(p, scope):
    name = scope + '.' + p.next(); assert p.next() == '{'
    ms = {}
    while True:
        x = p.next()
        if x == '}': break
        if x != 'rpc': p.semi(); continue
        m = p.next(); p.next(); a = p.next()
        if a == 'stream': a = p.next()
        p.next(); p.next(); p.next(); b = p.next()
        if b == 'stream': b = p.next()
        p.next()
        ms[m] = (a, b)
        if p.peek() == '{': p.block()
        else: p.next()
    services[name] = (scope, ms)
def message(p, scope):
    name = scope + '.' + p.next(); assert p.next() == '{'
    fs, one = [], 0
    def field(label, oneof):
        ty = p.next(); fn = p.next(); assert p.next() == '=', fn
        n = int(p.next(), 0); p.semi()
        fs.append((fn, n, ty, label == 'repeated', label == 'optional' or oneof is not None, oneof))
    while True:
        x = p.next()
        if x == '}': break
        if x == ';': continue
        if x in ('option', 'reserved', 'extensions'): p.semi()
        elif x == 'message': message(p, name)
        elif x == 'enum': enum(p, name)
        elif x == 'extend': p.next(); p.block()
        elif x == 'oneof':
            p.next(); p.next()
            while p.peek() != '}':
                if p.peek() == 'option': p.semi()
                else: field('', one)
            p.next(); one += 1
        elif x == 'map':
            p.next(); k = p.next(); p.next(); v = p.next(); p.next()
            fn = p.next(); p.next(); n = int(p.next(), 0); p.semi()
            e = name + '.' + ''.join(w.capitalize() for w in fn.split('_')) + 'Entry'
            messages[e] = (name, [('key', 1, k, False, False, None), ('value', 2, v, False, False, None)], True)
            fs.append((fn, n, '.' + e, True, False, None))
        elif x in ('repeated', 'optional', 'required'): field(x, None)
        else: p.i -= 1; field('', None)
    messages[name] = (name, fs, False)
def resolve(scope, ty):
    if ty.startswith('.'): return ty[1:]
    while True:
        c = (scope + '.' if scope else '') + ty
        if c in messages or c in enums: return c
        if not scope: raise Exception('unresolved ' + ty)
        scope = scope.rpartition('.')[0]
for f in glob.glob(PROTO + '/**/*.proto', recursive=True):
    if re.search(r'/(v2|v1beta1|v2alpha|v2alpha1|v3alpha)/', f): continue
    try: parse_file(f)
    except Exception as e: print('skipped', f, e, file=sys.stderr)
messages['test.TestRequest'] = ('test.TestRequest', [('message', 1, 'string', False, False, None)], False)
messages['test.TestResponse'] = ('test.TestResponse', [('result', 1, 'string', False, False, None)], False)
services['test.TestService'] = ('test', {'TestMethod': ('TestRequest', 'TestResponse')})
USED = ['envoy.service.auth.v3.Authorization', 'envoy.service.ratelimit.v3.RateLimitService',
        'kuadrant.service.ratelimit.v1.RateLimitService', 'test.TestService']
order, todo = [], []
svc_out = []
for s in USED:
    scope, ms = services[s]
    svc_out.append((s, [(m, resolve(scope, a), resolve(scope, b)) for m, (a, b) in ms.items()]))
    for _, a, b in svc_out[-1][1]: todo += [a, b]
while todo:
    m = todo.pop(0)
    if m in order: continue
    order.append(m)
    scope, fs, _ = messages[m]
    for f in fs:
        if f[2] not in SCALARS:
            r = resolve(scope, f[2])
            if r in messages: todo.append(r)
def q(s): return '"' + s.replace('"', '""') + '"'
def kind(scope, ty):
    if ty in SCALARS: return SCALARS[ty]
    r = resolve(scope, ty)
    if r in enums: return '(FEnum [%s])' % '; '.join('%d' % n for n in enums[r])
    return '(FMsg (tx %s))' % q(r)
def schema():
    out = []
    for m in order:
        scope, fs, entry = messages[m]
        l = ['mkF (tx %s) %s %s %s %s' % (q(n), kind(scope, ty), str(rep).lower(), str(ex).lower(), 'None' if o is None else '(Some %d%%N)' % o)
             for n, _, ty, rep, ex, o in fs]
        out.append('    mkM (tx %s) [%s] %s' % (q(m), '; '.join(l), str(entry).lower()))
    return ';\n'.join(out)
def numbers():
    out = []
    for m in order:
        out.append('    (tx %s, [%s])' % (q(m), '; '.join('(tx %s, %d%%N)' % (q(f[0]), f[1]) for f in messages[m][1])))
    return ';\n'.join(out)

# ---------------------------------------------------------------- rust
def split_args(s):
    out, d, cur, i = [], 0, '', 0
    while i < len(s):
        c = s[i]
        m = re.match(r'b?r#"(.*?)"#|b?"(?:\\.|[^"\\])*"', s[i:], re.S)
        if m: cur += m.group(0); i += len(m.group(0)); continue
        if c in '([{': d += 1
        if c in ')]}': d -= 1
        if c == ',' and d == 0: out.append(cur.strip()); cur = ''
        else: cur += c
        i += 1
    if cur.strip(): out.append(cur.strip())
    return out
def unesc(s):
    return re.sub(r'\\(\n\s*|.)', lambda m: {'n': '\n', 't': '\t', 'r': '\r', '"': '"', '\\': '\\', '0': '\0'}.get(m.group(1), ''), s, flags=re.S)
def data_consts():
    src = open(TESTS + '/util/data.rs').read()
    src = re.sub(r'//[^\n]*', '', src)
    out, path = {}, ['data']
    for m in re.finditer(r'mod (\w+) \{|const (\w+): &\[u8\] = &\[([^\]]*)\];|const \w+: &str = r#".*?"#;|\}', src, re.S):
        if m.group(1): path.append(m.group(1))
        elif m.group(2): out['::'.join(path + [m.group(2)])] = bytes(int(x, 0) for x in m.group(3).replace('\n', ' ').split(',') if x.strip())
        elif m.group(0) == '}': path.pop()
    return out
CONSTS = data_consts()
class V:
    def __init__(s, vars): s.v = dict(vars)
    def ev(s, e):
        e = e.strip()
        if e in s.v: return s.v[e]
        if e in CONSTS: return CONSTS[e]
        m = re.fullmatch(r'r#"(.*)"#', e, re.S)
        if m: return m.group(1)
        m = re.fullmatch(r'b"(.*)"', e, re.S)
        if m: return unesc(m.group(1)).encode()
        m = re.fullmatch(r'"((?:\\.|[^"\\])*)"', e, re.S)
        if m: return unesc(m.group(1))
        m = re.fullmatch(r'-?\d+(i32|u32)?', e)
        if m: return int(re.match(r'-?\d+', e).group(0))
        if re.fullmatch(r'0x[0-9a-fA-F]+', e): return int(e, 16)
        if e == 'None': return None
        if e in ('true', 'false'): return e == 'true'
        m = re.fullmatch(r'Some\((.*)\)', e, re.S)
        if m: return ('Some', s.ev(m.group(1).rstrip().rstrip(',')))
        m = re.fullmatch(r'Ok\((.*)\)', e, re.S)
        if m: return ('Ok', s.ev(m.group(1)))
        if e.startswith('Err('): return ('Err',)
        m = re.fullmatch(r'(.*)\.as_bytes\(\)', e, re.S)
        if m: return s.ev(m.group(1)).encode()
        m = re.fullmatch(r'(.*) as i32', e, re.S)
        if m: return s.ev(m.group(1))
        m = re.fullmatch(r'(\w+)\.len\(\)', e)
        if m: return len(s.ev(m.group(1)))
        m = re.fullmatch(r'vec!\[(.*)\]', e, re.S)
        if m: return [s.ev(x) for x in split_args(m.group(1))]
        m = re.fullmatch(r'&?\[(.*)\]', e, re.S)
        if m: return bytes(s.ev(x) for x in split_args(m.group(1)))
        m = re.fullmatch(r'\[(.*)\]\.concat\(\)', e, re.S)
        if m: return b''.join(s.ev(x) for x in split_args(m.group(1)))
        if e.startswith('&'): return s.ev(e[1:])
        m = re.fullmatch(r'\(?(\S+) \+ (\S+?)\)?', e, re.S)
        if m: return s.ev(m.group(1)) + s.ev(m.group(2))
        if e.startswith('('): return tuple(s.ev(x) for x in split_args(e[1:-1]))
        if re.fullmatch(r'[\w:]+', e): return ('id', e.split('::')[-1])
        raise Exception('cannot evaluate ' + e)
def balanced(s, i):
    """index just after the bracket closing the one at i"""
    d = 0
    while True:
        m = re.match(r'b?r#"(.*?)"#|b?"(?:\\.|[^"\\])*"', s[i:], re.S)
        if m: i += len(m.group(0)); continue
        if s[i] in '([{': d += 1
        if s[i] in ')]}':
            d -= 1
            if d == 0: return i + 1
        i += 1
def drop_line_comments(src):
    out, i = [], 0
    while i < len(src):
        m = re.match(r'b?r#"(.*?)"#|b?"(?:\\.|[^"\\])*"', src[i:], re.S)
        if m: out.append(m.group(0)); i += len(m.group(0)); continue
        if src.startswith('//', i):
            while i < len(src) and src[i] != '\n': i += 1
            continue
        out.append(src[i]); i += 1
    return ''.join(out)
def statements(body):
    """top-level statements of a function body"""
    out, i, start, d = [], 0, 0, 0
    while i < len(body):
        m = re.match(r'b?r#"(.*?)"#|b?"(?:\\.|[^"\\])*"', body[i:], re.S)
        if m: i += len(m.group(0)); continue
        if body[i] in '([{': d += 1
        if body[i] in ')]}': d -= 1
        if body[i] == ';' and d == 0: out.append(body[start:i].strip()); start = i + 1
        i += 1
    return out
def chain(st):
    """[(method, args)] of module.a(..).b(..)..."""
    i, out = st.index('.'), []
    while i < len(st):
        m = re.match(r'\s*\.(\w+)', st[i:])
        if not m: break
        i += m.end(); j = balanced(st, i)
        out.append((m.group(1), split_args(st[i+1:j-1]))); i = j
    return out
def some(x): return x[1] if isinstance(x, tuple) and x[0] == 'Some' else None
def by(b):
    if all(32 <= c < 127 for c in b) and b: return '(tx %s)' % q(b.decode())
    return '(bytes [%s]%%N)' % '; '.join(str(c) for c in b)
def txt(s): return by(s.encode())
def pairs(l): return '[%s]' % '; '.join('(%s, %s)' % (txt(a), txt(b)) for a, b in l)
def opt(f, x): return 'None' if x is None else '(Some %s)' % f(x)
METRIC = {1: 'MConfigs', 2: 'MHits', 3: 'MMisses', 4: 'MAllowed', 5: 'MDenied', 6: 'MErrors'}
MAPS = {'HttpRequestHeaders': 'MReq', 'HttpResponseHeaders': 'MResp'}
DEFAULT = {'MReq': [(':authority', 'abi_test_harness'), (':method', 'GET'), (':path', '/default/request/headers/path')],
           'MResp': [(':status', '200')]}
def step(env, ch):
    name, args = ch[0]
    a = [env.ev(x) for x in args]
    if name == 'call_proxy_on_request_headers': inp = 'InReqHeaders'
    elif name == 'call_proxy_on_response_headers': inp = 'InRespHeaders'
    elif name == 'call_proxy_on_request_body': inp = '(InReqBody %d %s)' % (a[1], str(a[2]).lower())
    elif name == 'call_proxy_on_response_body': inp = '(InRespBody %d %s)' % (a[1], str(a[2]).lower())
    elif name == 'call_proxy_on_grpc_receive': inp = '(InGrpc %d 0 %d)' % (a[1], a[2])
    elif name == 'proxy_on_grpc_close': inp = '(InGrpc %d %d 0)' % (a[1], a[2])
    else: return None
    props, maps, bufs, calls, exp = [], [], [], [], dict(m=[], c=[], r=[], h=[], p=[])
    ret = 'None'
    i = 1
    while i < len(ch):
        n, args = ch[i]
        a = [env.ev(x) for x in args] if n != 'execute_and_expect' else args
        res = None
        if i + 1 < len(ch) and ch[i+1][0] in ('returning', 'failing_with'):
            res = (ch[i+1][0], env.ev(ch[i+1][1][0])); i += 1
        if n == 'expect_get_property':
            props.append('([%s], %s)' % ('; '.join(txt(x) for x in some(a[0])), opt(by, some(res[1]))))
        elif n == 'expect_get_header_map_pairs':
            m = MAPS[some(a[0])[1]]
            if res[0] == 'failing_with': maps.append('(%s, [])' % m)
            else: maps.append('(%s, %s)' % (m, pairs(some(res[1]) if res[1] is not None else DEFAULT[m])))
        elif n == 'expect_get_buffer_bytes':
            b = {'GrpcReceiveBuffer': 'BGrpc', 'HttpRequestBody': 'BReqBody', 'HttpResponseBody': 'BRespBody'}[some(a[0])[1]]
            bufs.append('(%s, %s)' % (b, by(some(res[1]))))
        elif n == 'expect_increment_metric': exp['m'].append(METRIC[some(a[0])])
        elif n == 'expect_grpc_call':
            tok = res[1]
            calls.append('Some %d%%N' % tok[1] if tok[0] == 'Ok' else 'None')
            exp['c'].append('(%s, %s, %s, %s, %d%%N)' % (txt(some(a[0])), txt(some(a[1])), txt(some(a[2])), opt(by, some(a[4])), some(a[5])))
        elif n == 'expect_send_local_response':
            exp['r'].append('(%d%%N, %s, %s)' % (some(a[0]), opt(txt, some(a[1])), opt(pairs, some(a[2]))))
        elif n == 'expect_set_header_map_pairs':
            exp['h'].append('(%s, %s)' % (opt(lambda m: MAPS[m[1]], some(a[0])), opt(pairs, some(a[1]))))
        elif n == 'expect_set_property':
            exp['p'].append('([%s], %s)' % ('; '.join(txt(x) for x in some(a[0])), by(some(a[1]))))
        elif n == 'execute_and_expect':
            m = re.search(r'Action::(Pause|Continue)', ' '.join(args))
            if m: ret = '(Some %s)' % ('true' if m.group(1) == 'Pause' else 'false')
        elif n in ('expect_log', 'unwrap', 'expect_get_log_level'): pass
        else: raise Exception(n)
        i += 1
    j = lambda l: '[%s]' % '; '.join(l)
    return 'mkStep %s\n        %s\n        %s\n        %s\n        %s\n        (mkWant %s %s %s %s %s %s)' % (
        inp, j(props), j(maps), j(bufs), j(calls), j(exp['m']), j(exp['c']), j(exp['r']), j(exp['h']), j(exp['p']), ret)

out = []
for path in sorted(glob.glob(TESTS + '/*.rs')):
    src = drop_line_comments(open(path).read())
    base = os.path.basename(path)[:-3]
    glo = {m.group(1): m.group(2) for m in re.finditer(r'const (\w+): &str = r#"(.*?)"#;', src, re.S)}
    for m in re.finditer(r'#\[test\]\s*#\[serial\]\s*fn (\w+)\(\) \{', src):
        end = balanced(src, m.end() - 1)
        env = V(glo); cfg = None; steps = []
        for st in statements(src[m.end():end-1]):
            l = re.match(r'let (?:mut )?(\w+)(?:: [^=]*)? = (.*)', st, re.S)
            if l:
                if l.group(1) in ('args', 'module'): continue
                env.v[l.group(1)] = env.ev(l.group(2)); continue
            c = re.match(r'configure_dynamic_service\(&mut module, root_context, (\w+)\)', st)
            if c: cfg = env.ev(c.group(1)); continue
            if not st.startswith('module'): raise Exception(st[:80])
            ch = chain(st)
            if ch[0][0] == 'call_proxy_on_configure':
                for k, (n, a) in enumerate(ch):
                    if n == 'expect_get_buffer_bytes': cfg = env.ev(ch[k+1][1][0])[1].decode()
                continue
            s = step(env, ch)
            if s: steps.append(s)
        if not steps: continue
        line = open(path).read()[:open(path).read().index('fn %s()' % m.group(1))].count('\n') + 1
        name = '%s_%s' % (base, m.group(1))
        out.append('''(** tests/%s.rs:%d *)
Definition cfg_%s : text := tx %s.
Definition steps_%s : list step := [
    %s].
Example replay_%s : replay cfg_%s steps_%s = true.
Proof. vm_compute. reflexivity. Qed.
''' % (base, line, name, q(cfg), name, ';\n    '.join(steps), name, name, name))
head = '''(** Generated by tools/replay.py from the integration tests of the repository
    (crates/wasm-shim/tests) and its vendored protobuf files: the model, given the configuration and
    the host's answers of each test, has the effects which the test expects.  These are tests of the
    model, not proofs about it. *)
From Coq Require Import String Ascii List NArith ZArith Bool.
From Verif Require Import Base Value Conv Proto Headers Ctx Deploy Filter ReplayLib.
Import ListNotations.
Open Scope list_scope.
Open Scope string_scope.

Definition the_schema : schema := [
%s]%%Z.
Definition the_numbers : list (text * list (text * N)) := [
%s].
Definition the_services : list (text * list (text * (text * text))) := [
%s].
Definition replay := replay_with the_schema the_numbers the_services.

''' % (schema(), numbers(), ';\n'.join('    (tx %s, [%s])' % (q(s), '; '.join('(tx %s, (tx %s, tx %s))' % (q(m), q(a), q(b)) for m, a, b in ms)) for s, ms in svc_out))
open(os.path.join(os.path.dirname(os.path.abspath(__file__)), '../rocq/theories/Replay.v'), 'w').write(head + '\n'.join(out))
print(len(out), 'tests,', len(order), 'messages')
