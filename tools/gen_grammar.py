#!/usr/bin/env python3
"""Writes rocq/theories/Grammar.v from /repo/ast/toaq.peggy (templates expanded)
with rule numbers and function line numbers from /repo/ast/toaq.go.
tools/check_go.py validates that toaq.go contains exactly these rules."""
import re, sys, os
sys.path.insert(0, os.path.dirname(os.path.abspath(__file__)))
import peggy, check_go

out = peggy.expand(peggy.parse('/repo/ast/toaq.peggy'))
GO = check_go.GO
nums = {m.group(1): int(m.group(2)) for m in re.finditer(r'^\t_(\S+)\s+int = (\d+)$', GO, re.M) if m.group(1) != 'N'}
assert set(nums) == set(out)
line = {}
for i, l in enumerate(GO.split('\n'), 1):
    m = re.match(r'func _(\S+?)Accepts\(', l)
    if m: line[m.group(1)] = i

ACT = {
 'return Text(t)': 'AId', 'return Text(text(s, d))': 'AText',
 'return Node(x0.modSentence(s0))': 'AMod', 'return Node(x1.modFragment(s1))': 'AMod',
 'return Fragment(f.modFragment(s))': 'AMod',
 'return Fragment((*CoPRelative)(x0))': '(ACoP CRelative)',
 'return Sentence((*CoPSentence)(x))': '(ACoP CSentence)',
 'se.JE = je; return Sentence(se)': 'AJE',
 'return Word(*je.mod(s))': 'AMod', 'return Word(*ku.mod(s))': 'AMod', 'return Word(*q.mod(s))': 'AMod',
 'return (*Word)(w.mod(s))': 'AMod', 'return Word(*moq.mod(s))': 'AMod',
 'return &StatementSentence{Statement: st.modStatement(s), DA: da}': 'ASentence',
 'return Statement(prenexStmt(p, s))': 'APrenexStmt',
 'return Statement((*CoPStatement)(n))': '(ACoP CStatement)',
 'return Statement(endPredication(p, s, na))': 'AEndPredication',
 'return Predication(predication(p, s, ts))': 'APredication',
 'return Prenex(*p.mod(s))': 'AMod', 'return (*Prenex)(prenex(ts, s, bi))': 'APrenex',
 'return Predicate((*CoPPredicate)(x))': '(ACoP CPredicate)',
 'return Predicate(p.modPredicate(s))': 'AMod',
 'return Terms{t}': 'ATerms1', 'return Terms(ts.Prepend(t.modTerm(s)))': 'ATermsPrepend',
 'return Term(linkedTerm(g, a))': 'ALinked',
 'return Terms{l.modTerm(s), r}': 'ATerms2', 'return Terms(r.Prepend(l.modTerm(s)))': 'ATermsPrepend',
 'return Argument((*CoPArgument)(x))': '(ACoP CArgument)',
 'return Argument(focusedArgument(ku, a))': 'AFocus',
 'return PredicateArgument(quantifiedArgument(q, a))': 'AQuant',
 'return PredicateArgument(argumentRelative(*a, s, rc))': 'AArgRel',
 'return &PredicateArgument{Predicate: p}': 'AArg',
 'return Relative((*CoPRelative)(x0))': '(ACoP CRelative)', 'return Relative((*CoPRelative)(x))': '(ACoP CRelative)',
 'return Relative((*LURelative)(x1))': '(ALU LRelative)',
 'return &PredicationRelative{Predication: *endPredication(p, s, na)}': 'APredRel',
 'return Adverb((*CoPAdverb)(x))': '(ACoP CAdverb)',
 'return Adverb(&PredicateAdverb{Predicate: p})': 'AAdverb',
 'return Preposition((*CoPPreposition)(x))': '(ACoP CPreposition)',
 'return Preposition(prepPhrase(p, s, a))': 'APrep',
 'return Content((*CoPContent)(x))': '(ACoP CContent)',
 'return Content((*LUContent)(x1))': '(ALU LContent)',
 'return &PredicationContent{Predication: *endPredication(p, s, na)}': 'APredContent',
 'return CoP(connector(to, s, ru))': 'AConnector',
 'return Mod(m.mod(ms))': 'AMod',
 'return Mod(&Space{S: start, E: end, T: s})': 'ASpace', 'return Mod(&Space{S: start, E: end, T: w })': 'ASpace',
 'return (*Parenthetical)(endParen(p, s, ki))': 'AEndParen',
 'return Parenthetical{KIO: *kio.mod(s), Discourse: d}': 'AParen',
 'return &Incidental{JU: *ju.mod(s), Statement: st}': 'AIncidental',
 'return &Vocative{HU: *hu.mod(s), Argument: a}': 'AVocative',
 'return (*Word)(Word{S: start, E: end, T: w}.mod(s))': 'AWordSpace',
 'return Word{S: start, E: end, T: w}': 'AWord', 'return &Word{S: start, E: end, T: w}': 'AWord',
 'return &Interjection{S: start, E: end, T: w}': 'AInterjection',
 'return ""': 'AEmpty',
 'if l == "i" { return "ı" }; return string(l)': 'ADotless',
 'return string(addTone(d, t))': 'AAddTone',
 'return Predicate(&WordPredicate{S: start, E: end, T: w})': 'AWordPredicate',
 'return Predicate(moEnd(mo, s, teo))': 'AMoEnd', 'return MOPredicate{MO: *mo.mod(s), Discourse: d}': 'AMo',
 'return Predicate(poEnd(po, s, ga))': 'APoEnd', 'return POPredicate{PO: *po.mod(s), Argument: a}': 'APo',
 'return Predicate(miEnd(mi, s, ga))': 'AMiEnd', 'return MIPredicate{MI: *mi.mod(s), Phrase: p}': 'AMi',
 'return (*CoP)(foreCoP(con, s, cop))': 'AForeCoP', 'return CoP(foreCoPLeft(l, s, bar))': 'AForeLeft',
 'return CoP(foreCoPRight(to, s, r))': 'AForeRight', 'return (*CoP)(copLeft(l, s, bar))': 'ACopLeft',
 'return CoP(copRight(ru, s, r))': 'ACopRight', 'return Predicate(serial(l, s, r))': 'ASerial',
 'return &LUPhrase{LU: *lu.mod(s), Statement: st}': 'ALUPhrase',
 'return Predicate((*LUPredicate)(x))': '(ALU LPredicate)',
}
for p in ('Fragment', 'Term', 'Predicate', 'Relative', 'Content', 'Phrase', 'Mod'):
    for i in range(5): ACT['return %s(x%d)' % (p, i)] = 'AId'
for i in range(5): ACT['return (*TermSet)(x%d)' % i] = '(ACoP CTermSet)'
for t in '-/V?^~': ACT["return string(tone.Diacritic['%s'][l][0])" % t] = '(ADiacritic %d)' % ord(t)
ACT["return string(tone.Diacritic['\\\\'][l][0])"] = '(ADiacritic 92)'

def cq(s): return '"' + s.replace('"', '""') + '"'

def own_labels(e):
    """labels of e outside nested labels and actions"""
    k = e[0]
    if k == 'label': return [e[1]]
    if k in ('seq', 'choice'): return [n for x in e[1] for n in own_labels(x)]
    if k in ('plus', 'opt', 'and', 'not', 'sub'): return own_labels(e[1])
    return []

def tr(e, labs):
    k = e[0]
    if k == 'lit': return '(ELit %s)' % cq(e[1])
    if k == 'class':
        assert 0xFFFD not in e[1]
        return '(EClass [%s])' % '; '.join(map(str, e[1]))
    if k == 'any': return 'EAny'
    if k == 'call': return '(ECall %d)' % (nums[e[1]] + 1)
    if k == 'seq':
        es = e[1]
        # "p:. &{...}" of the rule punctuation
        if es[-1][0] == 'pred':
            assert es[-2] == ('label', 'p', ('any',)) and 'unicode.IsPunct(r)' in es[-1][1]
            labs.setdefault('p', len(labs))
            xs = [tr(x, labs) for x in es[:-2]] + ['EPunct']
        else: xs = [tr(x, labs) for x in es]
        r = xs[-1]
        for x in reversed(xs[:-1]): r = '(ESeq %s %s)' % (x, r)
        return r
    if k == 'choice':
        xs = [tr(x, labs) for x in e[1]]
        r = xs[-1]
        for x in reversed(xs[:-1]): r = '(EChoice %s %s)' % (x, r)
        return r
    if k in ('plus', 'opt', 'and', 'not', 'sub'):
        return '(E%s %s)' % (k.capitalize(), tr(e[1], labs))
    if k == 'label':
        i = labs.setdefault(e[1], len(labs))
        return '(ELabel %d %s)' % (i, tr(e[2], labs))
    if k == 'action':
        x = tr(e[2], labs)
        own = own_labels(e[2])
        if e[1] == 'return string(addTone(d, t))': assert own == ['d', 't']
        # arguments in the order of the labels in the expression
        return '(EAction %s [%s]%%nat %s)' % (ACT[e[1]], '; '.join(str(labs[n]) for n in own), x)
    raise Exception(k)

# nullable rules and ranks (untrusted: checked in Rocq)
nullable = set()
def nul(e):
    k = e[0]
    if k == 'lit': return e[1] == ''
    if k in ('class', 'any', 'pred'): return k == 'pred'
    if k == 'call': return e[1] in nullable
    if k == 'seq': return all(nul(x) for x in e[1])
    if k == 'choice': return any(nul(x) for x in e[1])
    if k in ('opt', 'and', 'not'): return True
    if k in ('plus', 'sub'): return nul(e[1])
    return nul(e[2])
while True:
    new = {n for n, r in out.items() if nul(r['expr'])}
    if new == nullable: break
    nullable |= new
def left(e, acc):
    k = e[0]
    if k == 'call': acc.add(e[1])
    elif k == 'seq':
        for x in e[1]:
            left(x, acc)
            if not nul(x): break
    elif k == 'choice':
        for x in e[1]: left(x, acc)
    elif k in ('opt', 'and', 'not', 'plus', 'sub'):
        left(e[1], acc)
        assert k != 'plus' or not nul(e[1])
    elif k in ('label', 'action'): left(e[2], acc)
    return acc
L = {n: left(r['expr'], set()) for n, r in out.items()}
rank = {}
def rk(n, stack=()):
    assert n not in stack, ('left recursion', n)
    if n not in rank: rank[n] = max([1 + rk(c, stack + (n,)) for c in L[n]], default=0)
    return rank[n]
for n in out: rk(n)

names = check_go.functions()
f = []
w = f.append
w('(** Generated by tools/gen_grammar.py from /repo/ast/toaq.peggy; do not edit.')
w('    The grammar of /repo/ast/toaq.go, one entry per generated rule, numbered one')
w('    more than the constants of toaq.go:10-415.  Each entry is preceded by the line')
w('    of the rule (or template) in toaq.peggy and the line of the generated Accepts')
w('    function in toaq.go; the Node, Fail and Action functions follow it there.')
w('    tools/check_go.py compares all 1612 generated functions with this table. *)')
w('')
w('From Coq Require Import String NArith PArith List FMapPositive.')
w('From Verif Require Import PegSyntax.')
w('Import ListNotations.')
w('Open Scope string_scope.')
w('Open Scope N_scope.')
w('')
w('Definition rule_list : list (positive * rule) := [')
items = sorted(out, key=lambda n: nums[n])
for j, n in enumerate(items):
    r = out[n]
    err = 'None' if r['err'] is None else '(Some %s)' % cq(r['err'])
    w('  (* toaq.peggy:%d, toaq.go:%d *)' % (r['line'], line[n]))
    w('  (%d%%positive, Rule %s %s' % (nums[n] + 1, cq(n), err))
    w('    %s)%s' % (tr(r['expr'], {}), ';' if j + 1 < len(items) else ''))
w('].')
w('')
def ident(n): return re.sub('[^A-Za-z0-9_]', '', n)
w('(** Rules the API starts from, and a few the theorems mention. *)')
for n in ('full_text', 'text', 'word', 'EOF', 'discourse', 'space', '_', 'sentence_3'):
    w('Definition r_%s : positive := %d%%positive.  (* toaq.go const _%s *)' % (n.strip('_') or 'blank', nums[n] + 1, n))
w('')
w('(** Rules that may succeed without consuming input, and a rank that decreases')
w('    along calls made before anything is consumed; checked in PegToaq.v. *)')
w('Definition nullable_list : list positive := [%s]%%positive.' % '; '.join(str(nums[n] + 1) for n in items if n in nullable))
w('Definition rank_list : list (positive * nat) := [%s].' % '; '.join('(%d%%positive, %d%%nat)' % (nums[n] + 1, rank[n]) for n in items))
w('Definition max_rank : nat := %d%%nat.' % max(rank.values()))
open(os.path.join(os.path.dirname(os.path.abspath(__file__)), '../rocq/theories/Grammar.v'), 'w', encoding='utf-8').write('\n'.join(f) + '\n')
print('nullable', sorted(nullable), 'max rank', max(rank.values()))
