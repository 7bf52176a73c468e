#!/usr/bin/env python3
"""Regenerates MANIFEST.json.  Run from anywhere."""
import json, os, re, sys
ROOT = os.path.join(os.path.dirname(os.path.abspath(__file__)), '..')

# property -> (status, note)
NOTES = {
 'C01': ('proved', 'tables built from any reordering of both levels of the Diacritic map'),
 'C02': ('partial', 'false as stated ("áá" gives "aá/"), refuted; the exact condition is proved'),
 'C03': ('proved', ''),
 'C04': ('proved', ''),
 'C05': ('proved', 'stronger: markers after the first vowel are allowed'),
 'C06': ('proved', ''),
 'C07': ('proved', ''),
 'C08': ('partial', 'false as stated (Tone("dodó") is rising), refuted; exact behaviour proved for every string'),
 'C09': ('proved', 'strings.ToLower is an arbitrary function'),
 'C10': ('partial', 'false as stated (nil dereference), refuted; exact panic condition proved'),
 'C11': ('proved', 'for the expressions of the 403 rules as data; depth at most 42 (len+1)'),
 'C12': ('proved', 'against a PEG semantics without memo tables; of an error only its existence is compared'),
 'C13': ('partial', 'false as stated (matching stops at U+FFFD or an invalid byte), refuted; the exact stopping point is proved'),
 'C14': ('proved', ''),
 'C15': ('partial', 'false as stated since Text can panic (C18), refuted; proved for texts without the digits 1-7, and exactly: where Tree succeeds Text does unless a digit 1-7 follows two plain letters, and then it panics'),
 'C16': ('proved', 'with C17'),
 'C17': ('proved', ''),
 'C18': ('partial', 'false as stated ("dai4" panics), refuted; proved that the index in addTone is the only panic and needs a digit 1-7, and that Text panics exactly on the accepted texts in which such a digit follows two plain letters (letters and digits being no punctuation)'),
 'C19': ('partial', 'false as stated (operands of three kinds of connective phrases), refuted; proved with exactly those three exceptions'),
 'C20': ('partial', 'false of the order of words around parentheticals, refuted; proved: ranges, tiling, spelling, and the order of all words other than ki'),
 'C21': ('partial', 'false as stated (End panics on "hio?"), refuted; the exact nodes on which Start and End panic are proved'),
 'C22': ('partial', 'false for Word, refuted; proved for Text without Word calls'),
 'C24': ('partial', 'false as stated (panics on the raw *CoP that Visit shows), refuted; proved for all other nodes'),
 'C25': ('partial', 'false of hand-made trees, refuted; proved for every node of every tree that Text and Word return'),
 'C26': ('proved', 'for visitors with any state and any pruning; visitors that change the tree are not modelled'),
 'C27': ('partial', 'false of parentheticals, refuted; proved for all trees with exactly that exception'),
 'C28': ('proved', 'words and their texts as a store; a tree in which no word is shared'),
 'C29': ('proved', ''),
 'C30': ('partial', 'false as stated ("gi? ro hui?" panics, and so does a failing type assertion; on "mi? Hoaq? ke do/ jeiV gi^ hoa/ na hoa/" it never ends), refuted; proved: no panic, neither in Interpret nor in String, when the sentences are well sorted and use only supported words; proved: both return a result when the sentences are moreover first-order (no clauses as arguments), or covered (clauses too, but not hi before a predicate, mi, and clauses in serial predicates); of parsed texts only the connectives have to be supported ones'),
 'C31': ('proved', 'any order of both levels of the Diacritic map, any order of the keys of the map of names'),
 'C32': ('proved', ''),
 'C33': ('partial', 'false of two connected arguments, refuted; proved of the last connected argument, on the level of prenexStatement'),
 'C34': ('partial', 'false as stated, refuted; proved that the right operand is never read'),
 'C35': ('partial', 'false as stated, refuted with roi, with hi, with hoa inside po, and with ke; proved for all sentences of the first-order fragment (words, serials, quantified arguments, variables, hoa, relative clauses, prenexes, connectives; no clauses in predicates, prepositions, adverbs); for covered sentences (Clauses.v: clauses, prepositions, adverbs, quotations, pluralities) it holds exactly when it holds of the meaning C55 gives; proved for well-ordered sentences (Orderly.v), a class of covered ones told from their words'),
 'C36': ('partial', 'false as stated, refuted; proved of trees that share no binding, of first-order sentences in which no free variable occurs twice, and of covered sentences (C55) whose meaning introduces no variable twice and has none outside of what binds it, as all well-ordered ones have'),
 'C37': ('partial', 'false as stated (no period), refuted; distinct names are proved of every parsed text, the period of trees whose variable numbers have no gap, of first-order sentences whose free variables occur once and whose bindings are used, and of covered sentences (as for C36) whose bindings are used; refuted for a well-ordered sentence that introduces a variable twice'),
 'C38': ('partial', 'the union is proved; sorted and without duplicates is false, refuted, and proved of disjoint sets'),
 'C39': ('partial', 'false as stated ("dai4" crashes, one text keeps the handler busy forever, a failing assertion in Interpret is shown as "fragment"), refuted; proved: exactly when the answer is an error or the five fields, what these hold, that a panic is a runtime error and not one the code calls impossible, and none for supported sentences without digits, and that first-order and covered ones (C55) are always answered; of covered sentences exactly: an error where Tree has one, a crash where a digit 1-7 follows two plain letters, and a full answer otherwise'),
 'C40': ('partial', 'false as stated (".miu gi? ro hui?" and ".miu dai4" panic), refuted; proved: what the bot says, when it keeps silent, no panic for supported sentences without digits, always an answer for first-order and covered ones (C55), a crash exactly where a digit 1-7 follows two plain letters in them, and what the bridge loses'),
 'C41': ('proved', 'errors before the first call of Tree or Text are not part of the statement: Word calls made earlier are not shown not to influence it'),
 'C42': ('proved', ''),
 'C43': ('partial', 'false: the next message of Tree after DedupFails on "hao? xx" differs, refuted; proved: results and the place of errors do not change'),
 'C44': ('proved', ''),
 'C45': ('proved', ''),
 'C46': ('partial', 'false as stated (crashes, panics, an endless loop), refuted; proved: the whole report if the status is 0, when it panics, no panic on supported sentences, a status on first-order and covered (C55) sentences, of the latter exactly: 1 where Tree has an error, a crash where a digit 1-7 follows two plain letters, 0 otherwise'),
 'C47': ('proved', ''),
 'C48': ('partial', 'proved for first-order sentences (ScopeSpec.v); not covered: clauses, prefixes, prepositions, adverbs, roi, ja, hi and ke with variables, quotations. Of two connected arguments in one list the semantics describes what the code does (see C33)'),
 'C49': ('partial', 'proved for first-order sentences (ScopeSpec.v), and for covered sentences (Clauses.v) whose meaning has no variable outside what binds it, as all well-ordered sentences (Orderly.v); refuted for a covered sentence that has one'),
 'C50': ('partial', 'as C49, where no quotation contains the sign that ends it (with one that does it is refuted); that the association of connectives is determined is refuted'),
 'C51': ('proved', 'of all nodes in memory, also those that are not part of the tree; letters: of parsed texts'),
 'C52': ('proved', 'of the combining marks, the vowels and q it is assumed that they are not punctuation'),
 'C53': ('proved', ''),
 'C54': ('partial', 'false as stated (E of the word is the end of the white space), refuted; everything else is proved'),
 'C55': ('partial', 'proved for covered sentences (Clauses.v), for which Interpret and String always return; not covered: hi before a predicate, mi, anything but words in serial predicates. What the semantics says of connected arguments of prepositions is what the code does (see C34)'),
 'C56': ('partial', 'false as stated (a lambda whose variable is a predicate, a restriction that is an equation for another variable), refuted; proved for covered sentences without these, without variables in serial predicates, without properties whose argument comes after a missing one, and whose variables are in scope; well-ordered sentences (Orderly.v) are such'),
 'C57': ('proved', ''),
 'C58': ('partial', 'false as stated ("verdict." in a definition becomes "ver"; "ict." after a soft hyphen gives an unreadable file), refuted; proved exactly when no quoted string contains "dict.", as when no string contains "ict."; gofmt is a parameter that keeps what the source says'),
 'C59': ('partial', 'false of errors: SimpleError cuts the text after ten bytes, which may be in the middle of a character, refuted; proved: the five members exactly for every text that parses, errors exactly if the message is UTF-8, as for requests in ASCII, and otherwise with U+FFFD for the bytes that are not'),
 'C60': ('proved', ''),
 'C61': ('proved', ''),
 'C62': ('proved', ''),
 'C63': ('proved', ''),
 'C64': ('partial', 'false, refuted: after "to " the error asks for space and five words at the end of the text, but for space alone before a letter x, since the rule punctuation fails behind the letter it tried; no exact description of the wants is proved'),
 'C23': ('partial', 'false (Word(4) on "jai xx" reports offset 0), refuted; proved: when Word alone has been called every error of Word is at offset 0 and expects nothing, and after an error of Tree or Text every error of Word is that same error or such a blank one, the latter exactly if Word gets further from its offset than Tree from the start; and whatever has been called, all errors of one parser that are not blank are one and the same error, wherever they were asked for. Where that error is after a successful Tree is not characterised'),
}
thms = {}
for line in open(os.path.join(ROOT, 'rocq/_CoqProject')):
    f = line.strip()
    if not f.startswith('theories/Props_'): continue
    for m in re.finditer(r'^Theorem (C\d\d)(_\w+)', open(os.path.join(ROOT, 'rocq', f)).read(), re.M):
        thms.setdefault(m.group(1), []).append(m.group(1) + m.group(2))
claims = []
for line in open(os.path.join(ROOT, 'properties.jsonl')):
    p = json.loads(line)['id']
    if p in NOTES:
        st, note = NOTES[p]
        assert p in thms or st == 'not_applicable', p
        claims.append({'property': p, 'status': st, 'theorems': thms.get(p, []), 'note': note})
    else:
        claims.append({'property': p, 'status': 'partial' if p in thms else 'not_applicable', 'theorems': thms.get(p, []), 'note': 'not done yet'})
json.dump({'claims': claims}, open(os.path.join(ROOT, 'MANIFEST.json'), 'w'), indent=1, ensure_ascii=False)
