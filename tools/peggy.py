"""Parser and template expander for /repo/ast/toaq.peggy.

Expressions are tuples:
  ('lit', s) ('class', [runes]) ('any',) ('pred', code) ('call', name)
  ('seq', [e]) ('choice', [e]) ('plus', e) ('opt', e) ('and', e) ('not', e)
  ('sub', e) ('label', name, e) ('action', code, e)
"""
import re, unicodedata

def unescape(s):
    out = []; i = 0
    while i < len(s):
        c = s[i]
        if c == '\\':
            n = s[i+1]
            if n == 'u':
                out.append(chr(int(s[i+2:i+6], 16))); i += 6; continue
            out.append({'t': '\t', 'n': '\n', 'r': '\r'}.get(n, n)); i += 2; continue
        out.append(c); i += 1
    return ''.join(out)

class P:
    def __init__(self, src):
        self.s = src; self.i = 0
    def ws(self, newline=True):
        while self.i < len(self.s):
            c = self.s[self.i]
            if c == '#':
                while self.i < len(self.s) and self.s[self.i] != '\n': self.i += 1
            elif c in ' \t\r\n': self.i += 1
            else: break
    def ident(self):
        j = self.i
        while j < len(self.s) and (self.s[j] == '_' or self.s[j].isalnum()): j += 1
        if j == self.i: return None
        x = self.s[self.i:j]; self.i = j
        return x
    def peek(self, t):
        return self.s.startswith(t, self.i)
    def name(self):
        """ident with optional <args>"""
        x = self.ident()
        if x is None: return None
        args = []
        if self.peek('<') and not self.peek('<-'):
            self.i += 1
            while True:
                self.ws(); args.append(self.ident()); self.ws()
                if self.peek(','): self.i += 1; continue
                assert self.peek('>'); self.i += 1; break
        return (x, args)
    def braces(self):
        assert self.peek('{')
        d = 0; j = self.i
        while True:
            c = self.s[j]
            if c == '{': d += 1
            if c == '}':
                d -= 1
                if d == 0: break
            j += 1
        code = self.s[self.i+1:j]; self.i = j + 1
        return code
    def at_rule(self):
        """is there a rule head here?"""
        sv = self.i
        n = self.name()
        r = False
        if n:
            self.ws()
            if self.peek('"'):
                self.i = self.s.index('"', self.i + 1) + 1; self.ws()
            r = self.peek('<-')
        self.i = sv
        return r
    def choice(self):
        alts = [self.seq()]
        while True:
            self.ws()
            if self.peek('/'):
                self.i += 1; alts.append(self.seq())
            else: break
        return alts[0] if len(alts) == 1 else ('choice', alts)
    def seq(self):
        es = []
        code = None
        while True:
            self.ws()
            if self.i >= len(self.s) or self.peek('/') or self.peek(')'): break
            if self.peek('{'):
                code = self.braces(); break
            if self.at_rule(): break
            es.append(self.prefixed())
        e = es[0] if len(es) == 1 else ('seq', es)
        if code is not None: e = ('action', re.sub(r'\s+', ' ', code).strip(), e)
        return e
    def prefixed(self):
        sv = self.i
        n = self.ident()
        if n is not None:
            self.ws()
            if self.peek(':'):
                self.i += 1; self.ws()
                return ('label', n, self.pre2())
        self.i = sv
        return self.pre2()
    def pre2(self):
        if self.peek('&{'):
            self.i += 1
            return ('pred', self.braces())
        if self.peek('&'):
            self.i += 1; self.ws(); return ('and', self.pre2())
        if self.peek('!'):
            self.i += 1; self.ws(); return ('not', self.pre2())
        return self.postfix()
    def postfix(self):
        e = self.operand()
        while True:
            sv = self.i
            self.ws()
            if self.peek('?'): self.i += 1; e = ('opt', e)
            elif self.peek('+'): self.i += 1; e = ('plus', e)
            else: self.i = sv; return e
    def operand(self):
        if self.peek('('):
            self.i += 1
            e = self.choice(); self.ws()
            assert self.peek(')'), self.s[self.i:self.i+40]
            self.i += 1
            return ('sub', e)
        if self.peek('.'):
            self.i += 1; return ('any',)
        if self.peek('['):
            j = self.i + 1
            while self.s[j] != ']':
                if self.s[j] == '\\': j += 1
                j += 1
            body = self.s[self.i+1:j]; self.i = j + 1
            assert not re.search(r'[^\\]-', body), body
            return ('class', [ord(c) for c in unescape(body)])
        for q in '"\'':
            if self.peek(q):
                j = self.s.index(q, self.i + 1)
                body = self.s[self.i+1:j]; self.i = j + 1
                return ('lit', unescape(body))
        n = self.name()
        assert n, self.s[self.i:self.i+40]
        return ('call', n)

def parse(path):
    src = open(path, encoding='utf-8').read()
    p = P(src); p.ws(); p.braces()  # prelude
    rules = []
    while True:
        p.ws()
        if p.i >= len(p.s): break
        assert p.at_rule(), p.s[p.i:p.i+60]
        line = p.s.count('\n', 0, p.i) + 1
        name, params = p.name(); p.ws()
        err = None
        if p.peek('"'):
            j = p.s.index('"', p.i + 1); err = unescape(p.s[p.i+1:j]); p.i = j + 1; p.ws()
        assert p.peek('<-'); p.i += 2
        e = p.choice()
        endline = p.s.count('\n', 0, p.i) + 1
        rules.append(dict(name=name, params=params, err=err, expr=e, line=line))
    return rules

def mangle(n):
    x, args = n
    return x + ''.join('__' + a for a in args)

def subst(e, env):
    k = e[0]
    if k == 'call':
        x, args = e[1]
        if not args and x in env: return ('call', env[x])
        return ('call', mangle((x, [env.get(a, a) for a in args])), (x, [env.get(a, a) for a in args])) if args else ('call', x)
    if k in ('seq', 'choice'): return (k, [subst(x, env) for x in e[1]])
    if k in ('plus', 'opt', 'and', 'not', 'sub'): return (k, subst(e[1], env))
    if k in ('label', 'action'): return (k, e[1], subst(e[2], env))
    return e

def calls(e, acc):
    k = e[0]
    if k == 'call': acc.append(e)
    elif k in ('seq', 'choice'):
        for x in e[1]: calls(x, acc)
    elif k in ('plus', 'opt', 'and', 'not', 'sub'): calls(e[1], acc)
    elif k in ('label', 'action'): calls(e[2], acc)
    return acc

def clean(e):
    k = e[0]
    if k == 'call': return ('call', e[1])
    if k in ('seq', 'choice'): return (k, [clean(x) for x in e[1]])
    if k in ('plus', 'opt', 'and', 'not', 'sub'): return (k, clean(e[1]))
    if k in ('label', 'action'): return (k, e[1], clean(e[2]))
    return e

def expand(rules):
    """name -> dict(err, expr, line) for every plain rule and template instance in use."""
    tmpl = {r['name']: r for r in rules if r['params']}
    out = {}
    todo = []
    for r in rules:
        if r['params']: continue
        e = subst(r['expr'], {})
        out[r['name']] = dict(err=r['err'], expr=e, line=r['line'])
        todo += calls(e, [])
    while todo:
        c = todo.pop()
        if len(c) < 3 or c[1] in out: continue
        x, args = c[2]
        t = tmpl[x]
        assert len(t['params']) == len(args)
        e = subst(t['expr'], dict(zip(t['params'], args)))
        out[c[1]] = dict(err=t['err'], expr=e, line=t['line'])
        todo += calls(e, [])
    for r in out.values(): r['expr'] = clean(r['expr'])
    return out

if __name__ == '__main__':
    out = expand(parse('/repo/ast/toaq.peggy'))
    print(len(out))
    go = re.findall(r'^\t_(\S+)\s+int = (\d+)$', open('/repo/ast/toaq.go', encoding='utf-8').read(), re.M)
    go = [g for g in go if g[0] != 'N']
    a = {g[0] for g in go}; b = set(out)
    print('only go', sorted(a - b)[:20], 'only peggy', sorted(b - a)[:20])
    acts = {}
    def walk(e, name, labs):
        if e[0] == 'action':
            ls = []
            def lab(x):
                if x[0] == 'label': ls.append((x[1], x[2]))
                elif x[0] in ('seq', 'choice'):
                    for y in x[1]: lab(y)
                elif x[0] in ('plus', 'opt', 'and', 'not', 'sub'): lab(x[1])
                elif x[0] == 'action': lab(x[2])
            lab(e[2])
            acts.setdefault(e[1], []).append((name, [l[0] for l in ls]))
            walk(e[2], name, labs)
        elif e[0] in ('seq', 'choice'):
            for y in e[1]: walk(y, name, labs)
        elif e[0] in ('plus', 'opt', 'and', 'not', 'sub'): walk(e[1], name, labs)
        elif e[0] == 'label': walk(e[2], name, labs)
    for n, r in out.items(): walk(r['expr'], n, None)
    for c, l in acts.items(): print(len(l), c, l[0])
