#!/usr/bin/env python3
"""Cross-checks toaq.peggy against the generated parser toaq.go.

For each of the 403 rules this re-emits, from the expression obtained by
expanding the templates of toaq.peggy, the code of the Accepts, Node and Fail
functions the way the Rocq evaluators in Peg.v read them, and compares it line
by line (numbered variables and labels renamed in order of first appearance,
comments dropped) with what toaq.go contains.  The Action functions are compared
by their control skeleton and by the text of each action."""
import re, sys
sys.path.insert(0, __file__.rsplit('/', 1)[0])
import peggy

GO = open('/repo/ast/toaq.go', encoding='utf-8').read()

def functions():
    out = {}
    for m in re.finditer(r'^func _(\S+?)(Accepts|Node|Fail|Action)\(parser \*_Parser, start.*?^}$', GO, re.M | re.S):
        out[(m.group(1), m.group(2))] = m.group(0)
    return out

def strip(code):
    ls = []
    for l in code.split('\n'):
        l = l.strip()
        if not l or l.startswith('//'): continue
        ls.append(l)
    return ls

IDS = re.compile(r'\b(pos|perr|nkids|fail|ok|node|start|label)(\d+)\b|labels\[(\d+)\]')
def alpha(lines):
    m = {}
    def f(x):
        k = x.group(0)
        if k not in m: m[k] = '%s@%d' % (x.group(1) or 'labels', len(m))
        return m[k]
    return [IDS.sub(f, l) for l in lines]

def runelit(c):
    s = chr(c)
    return {'\t': "'\\t'", '\n': "'\\n'", '\r': "'\\r'", '\\': "'\\\\'", '̄': 0}.get(s) or "'%s'" % s

def gostr(s):
    o = ''
    for c in s:
        if c == '"': o += '\\"'
        elif c == '\\': o += '\\\\'
        elif c == '\t': o += '\\t'
        elif c == '\n': o += '\\n'
        elif c == '\r': o += '\\r'
        else: o += c
    return '"' + o + '"'

def show(e, names):
    """peggy's String of an expression, used in Want fields of predicates"""
    k = e[0]
    if k == 'lit': return '"%s"' % e[1]
    if k == 'any': return '.'
    if k == 'call': return e[1]
    if k == 'seq': return ' '.join(show(x, names) for x in e[1])
    if k == 'choice': return '/'.join(show(x, names) for x in e[1])
    if k == 'sub': return '(' + show(e[1], names) + ')'
    if k == 'opt': return show(e[1], names) + '?'
    if k == 'plus': return show(e[1], names) + '+'
    if k == 'and': return '&' + show(e[1], names)
    if k == 'not': return '!' + show(e[1], names)
    if k == 'label': return e[1] + ':' + show(e[2], names)
    if k == 'action': return show(e[2], names) + ' {…}'
    raise Exception(k)

def class_want(rs):
    o = '['
    for r in rs:
        c = chr(r)
        o += {'\t': '\\t', '\n': '\\n', '\r': '\\r', '\\': '\\\\', '-': '\\-', '^': '\\^', ']': '\\]'}.get(c, c)
    return o + ']'

class Emit:
    def __init__(self, mode):
        self.m = mode; self.n = 0; self.out = []; self.lab = 0; self.failused = False
        self.labnames = {}
    def new(self, p):
        self.n += 1; return '%s%d' % (p, self.n)
    def w(self, *ls): self.out += ls
    def goto(self, f):
        if f == 'fail': self.failused = True
        self.w('goto ' + f)
    def want(self, want):
        if self.m == 'Accepts': self.w('perr = _max(perr, pos)')
        if self.m == 'Fail':
            self.w('if pos >= errPos {', 'failure.Kids = append(failure.Kids, &peg.Fail{', 'Pos:  int(pos),', 'Want: %s,' % want, '})', '}')
    def e(self, e, F):
        k = e[0]; w = self.w; m = self.m
        if k == 'call':
            if m == 'Accepts': w('if !_accept(parser, _%sAccepts, &pos, &perr) {' % e[1])
            if m == 'Node': w('if !_node(parser, _%sNode, node, &pos) {' % e[1])
            if m == 'Fail': w('if !_fail(parser, _%sFail, errPos, failure, &pos) {' % e[1])
            self.goto(F); w('}')
        elif k == 'any' or k == 'class':
            if k == 'any': w("if r, w := _next(parser, pos); w == 0 || r == '\\uFFFD' {")
            else: w('if r, w := _next(parser, pos); ' + ' && '.join('r != ' + runelit(r) for r in e[1]) + ' {')
            self.want('"."' if k == 'any' else gostr(class_want(e[1])))
            self.goto(F)
            w('} else {')
            if m == 'Node': w('node.Kids = append(node.Kids, _leaf(parser, pos, pos+w))')
            w('pos += w', '}')
        elif k == 'lit':
            n = len(e[1].encode())
            w('if len(parser.text[pos:]) < %d || parser.text[pos:pos+%d] != %s {' % (n, n, gostr(e[1])))
            self.want(gostr(''.join('"%s"' % ''.join('\\u%04x' % ord(c) if 0x300 <= ord(c) < 0x370 else c for c in e[1]))))
            self.goto(F); w('}')
            if m == 'Node': w('node.Kids = append(node.Kids, _leaf(parser, pos, pos+%d))' % n)
            w('pos++' if n == 1 else 'pos += %d' % n)
        elif k == 'pred':
            code = e[1].strip()
            w('if ok := func(p string) bool {', 'return ' + code, '}(labels[0]); !ok {')
            self.want('"&{" + %s + "}"' % gostr(e[1]))
            self.goto(F); w('}')
        elif k == 'seq':
            for x in e[1]: self.e(x, F)
        elif k == 'choice':
            w('{'); p = self.new('pos'); nk = self.new('nkids'); ok = self.new('ok')
            w('%s := pos' % p)
            if m == 'Node': w('%s := len(node.Kids)' % nk)
            for i, x in enumerate(e[1]):
                f = self.new('fail')
                self.e(x, f); w('goto ' + ok, f + ':')
                if m == 'Node': w('node.Kids = node.Kids[:%s]' % nk)
                w('pos = ' + p)
            self.goto(F); w(ok + ':', '}')
        elif k == 'opt':
            w('{'); p = self.new('pos'); nk = self.new('nkids'); ok = self.new('ok'); f = self.new('fail')
            if m == 'Node': w('%s := len(node.Kids)' % nk)
            w('%s := pos' % p)
            self.e(e[1], f); w('goto ' + ok, f + ':')
            if m == 'Node': w('node.Kids = node.Kids[:%s]' % nk)
            w('pos = ' + p, ok + ':', '}')
        elif k == 'plus':
            self.e(e[1], F)
            p = self.new('pos'); nk = self.new('nkids'); f = self.new('fail')
            w('for {')
            if m == 'Node': w('%s := len(node.Kids)' % nk)
            w('%s := pos' % p)
            lab = self.lab
            self.e(e[1], f); w('continue', f + ':')
            if m == 'Node': w('node.Kids = node.Kids[:%s]' % nk)
            w('pos = ' + p, 'break', '}')
        elif k in ('and', 'not'):
            w('{'); p = self.new('pos'); pe = self.new('perr'); nk = self.new('nkids'); ok = self.new('ok'); f = self.new('fail')
            tgt = {'Node': 'node', 'Fail': 'failure'}.get(m)
            w('%s := pos' % p)
            if m == 'Accepts': w('%s := perr' % pe)
            else: w('%s := len(%s.Kids)' % (nk, tgt))
            trunc = None if m == 'Accepts' else '%s.Kids = %s.Kids[:%s]' % (tgt, tgt, nk)
            def failing():
                w('pos = ' + p)
                if m == 'Accepts': w('perr = _max(%s, pos)' % pe)
                if m == 'Fail': w(trunc); self.want(gostr(show(e, None)))
                if m == 'Node' and k == 'not': w(trunc)
                self.goto(F)
            def okay():
                w(ok + ':', 'pos = ' + p)
                w('perr = ' + pe if m == 'Accepts' else trunc)
            if k == 'and':
                self.e(e[1], f); w('goto ' + ok, f + ':'); failing(); okay()
            else:
                self.e(e[1], ok); failing(); okay()
            w('}')
        elif k == 'sub':
            if m == 'Node':
                w('{'); nk = self.new('nkids'); p = self.new('pos')
                w('%s := len(node.Kids)' % nk, '%s := pos' % p)
                self.e(e[1], F)
                w('sub := _sub(parser, %s, pos, node.Kids[%s:])' % (p, nk), 'node.Kids = append(node.Kids[:%s], sub)' % nk, '}')
            else: self.e(e[1], F)
        elif k == 'label':
            w('{'); p = self.new('pos')
            w('%s := pos' % p)
            self.e(e[2], F)
            i = self.labnames.setdefault(e[1], len(self.labnames))
            w('labels[%d] = parser.text[%s:pos]' % (i, p), '}')
        elif k == 'action': self.e(e[2], F)
        else: raise Exception(k)

def labels(e, acc):
    k = e[0]
    if k == 'label': acc.append(e[1]); labels(e[2], acc)
    elif k in ('seq', 'choice'):
        for x in e[1]: labels(x, acc)
    elif k in ('plus', 'opt', 'and', 'not', 'sub'): labels(e[1], acc)
    elif k == 'action': labels(e[2], acc)
    return acc

def emit(name, r, mode):
    x = Emit(mode); w = x.w
    nl = len(labels(r['expr'], []))
    sig = {'Accepts': 'start int) (deltaPos, deltaErr int) {', 'Node': 'start int) (int, *peg.Node) {', 'Fail': 'start, errPos int) (int, *peg.Fail) {'}[mode]
    w('func _%s%s(parser *_Parser, %s' % (name, mode, sig))
    if nl: w('var labels [%d]string' % nl, 'use(labels)')
    if mode == 'Accepts':
        w('if dp, de, ok := _memo(parser, _%s, start); ok {' % name, 'return dp, de', '}', 'pos, perr := start, -1')
    elif mode == 'Node':
        w('dp := parser.deltaPos[start][_%s]' % name, 'if dp < 0 {', 'return -1, nil', '}', 'key := _key{start: start, rule: _%s}' % name,
          'node := parser.node[key]', 'if node != nil {', 'return start + int(dp-1), node', '}', 'pos := start', 'node = &peg.Node{Name: "%s"}' % rname(name))
    else:
        w('pos, failure := _failMemo(parser, _%s, start, errPos)' % name, 'if failure != nil {', 'return pos, failure', '}',
          'failure = &peg.Fail{', 'Name: "%s",' % name, 'Pos:  int(start),', '}', 'key := _key{start: start, rule: _%s}' % name)
    x.e(r['expr'], 'fail')
    if mode == 'Accepts':
        if r['err']: w('perr = start')
        w('return _memoize(parser, _%s, start, pos, perr)' % name)
        if x.failused: w('fail:', 'return _memoize(parser, _%s, start, -1, perr)' % name)
    elif mode == 'Node':
        w('node.Text = parser.text[start:pos]', 'parser.node[key] = node', 'return pos, node')
        if x.failused: w('fail:', 'return -1, nil')
    else:
        if r['err']: w('failure.Kids = nil')
        w('parser.fail[key] = failure', 'return pos, failure')
        if x.failused:
            w('fail:')
            if r['err']: w('failure.Kids = nil', 'failure.Want = %s' % gostr(r['err']))
            w('parser.fail[key] = failure', 'return -1, failure')
    w('}')
    return x.out

DROP = re.compile(r'^(\{|\}|var .*|use\(labels\)|(node|label)\d* \+?= (node|label|parser\.text|\*n|new\(|nil|"|append).*|(node|label)\d*, node\d* = .*|\*(node|label)\d* = \*n|start\d+ := pos)$')
def action_go(code):
    """control skeleton of an Action function, with each action reduced to one line"""
    ls = strip(code); out = []; i = 0
    while i < len(ls):
        l = ls[i]
        if re.match(r'^(node|label)\d* = func\($', l):
            j = i + 1
            while ls[j] != '}(': j += 1
            params = re.match(r'start, end int(.*)\) (\S+) \{$', ls[i+1])
            names = [q.strip().split(' ')[0] for q in params.group(1).split(',')[1:]]
            args = re.match(r'start\d+, pos(.*)\)$', ls[j+1]).group(1)
            args = [int(q.strip()[5:]) for q in args.split(',')[1:]]
            assert len(names) == len(args)
            out.append(('ACTION', dict(zip(names, args)), '; '.join(ls[i+2:j])))
            i = j + 2; continue
        if not DROP.match(l): out.append(l)
        i += 1
    return out

def norm(c): return re.sub(r'[\s;]+', ' ', c).strip().replace('w }', 'w}')

class EmitA(Emit):
    def e(self, e, F):
        k = e[0]; w = self.w
        if k == 'call':
            w('if p, n := _%sAction(parser, pos); n == nil {' % e[1]); self.goto(F); w('} else {', 'pos = p')
        elif k == 'any' or k == 'class':
            if k == 'any': w("if r, w := _next(parser, pos); w == 0 || r == '\\uFFFD' {")
            else: w('if r, w := _next(parser, pos); ' + ' && '.join('r != ' + runelit(r) for r in e[1]) + ' {')
            self.goto(F); w('} else {', 'pos += w')
        elif k in ('and', 'not'):
            p = self.new('pos'); ok = self.new('ok'); f = self.new('fail')
            w('%s := pos' % p)
            if k == 'and': self.e(e[1], f); w('goto ' + ok, f + ':')
            else: self.e(e[1], ok)
            w('pos = ' + p); self.goto(F); w(ok + ':', 'pos = ' + p)
        elif k == 'action':
            self.e(e[2], F)
            w(('ACTION', {n: self.labnames[n] for n in labels(e[2], [])}, e[1]))
        else: Emit.e(self, e, F)

def emit_action(name, r, rtype, ntype):
    x = EmitA('Action'); w = x.w
    w('func _%sAction(parser *_Parser, start int) (int, *%s) {' % (name, rtype))
    w('dp := parser.deltaPos[start][_%s]' % name, 'if dp < 0 {', 'return -1, nil', 'key := _key{start: start, rule: _%s}' % name,
      'n := parser.act[key]', 'if n != nil {', 'n := n.(%s)' % rtype, 'return start + int(dp-1), &n', 'pos := start')
    x.e(r['expr'], 'fail')
    w('parser.act[key] = node', 'return pos, &node')
    if x.failused: w('fail:', 'return -1, nil')
    return [l for l in x.out if not (isinstance(l, str) and DROP.match(l))]

def alpha2(ls):
    flat = alpha([l if isinstance(l, str) else '' for l in ls])
    return [l if isinstance(o, str) else o for l, o in zip(flat, ls)]

def same_action(a, b):
    if isinstance(a, str) or isinstance(b, str): return a == b
    # mine lists the labels of the action's own expression, Go passes every label in scope
    return all(b[1].get(n) == i for n, i in a[1].items()) and norm(a[2]) == norm(b[2])

NAMES = {}
def rname(n): return NAMES.get(n, n)

def main():
    fs = functions()
    out = peggy.expand(peggy.parse('/repo/ast/toaq.peggy'))
    bad = 0
    for (n, mode), code in fs.items():
        if mode == 'Node':
            m = re.search(r'Name: "(.*)"}', code); NAMES[n] = m.group(1)
    for n, r in out.items():
        for mode in ('Accepts', 'Node', 'Fail'):
            a = alpha(emit(n, r, mode)); b = alpha(strip(fs[(n, mode)]))
            if a != b:
                bad += 1
                if bad <= 12:
                    print('MISMATCH', n, mode)
                    for i, (p, q) in enumerate(zip(a, b)):
                        if p != q: print('  line', i, '\n   mine', p, '\n   go  ', q); break
                    else: print('  lengths', len(a), len(b), a[-3:], b[-3:])
    for n, r in out.items():
        code = fs[(n, 'Action')]
        rt = re.match(r'.*\(int, \*(.*)\) \{', code).group(1)
        a = alpha2(emit_action(n, r, rt, rt)); b = alpha2(action_go(code))
        if len(a) != len(b) or not all(same_action(x, y) for x, y in zip(a, b)):
            bad += 1
            if bad <= 12:
                print('MISMATCH', n, 'Action')
                for i, (p, q) in enumerate(zip(a, b)):
                    if not same_action(p, q): print('  line', i, '\n   mine', p, '\n   go  ', q); break
                else: print('  lengths', len(a), len(b), a[-3:], b[-3:])
    print('functions', len(fs), 'mismatches', bad)
    return bad
if __name__ == '__main__': sys.exit(1 if main() else 0)
