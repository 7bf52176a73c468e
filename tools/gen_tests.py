#!/usr/bin/env python3
"""Generates rocq/theories/RepoTests.v: the table tests of the repository, run on the model."""
import json, os, re
ROOT = os.path.join(os.path.dirname(os.path.abspath(__file__)), '..')
REPO = '/repo'

def go_str(s):
    if s[0] == '`': return s[1:-1]
    return json.loads(s)
LIT = r'("(?:[^"\\]|\\.)*"|`[^`]*`)'
def coq(s): return '"' + s.replace('"', '""') + '"'

def table(path, fields):
    src = open(os.path.join(REPO, path), encoding='utf8').read()
    pat = r'\s*'.join(r'%s:\s*%s,' % (f, LIT) for f in fields)
    return [tuple(go_str(x) for x in m) for m in re.findall(pat, src)]

out = []
w = out.append
w('(** The table tests of /repo, run on the model.  Generated by tools/gen_tests.py. *)\n')
w('From Coq Require Import String List.')
w('From Verif Require Import Base Ast Parser Braces.')
w('Import ListNotations.\nOpen Scope string_scope.\n')
w('Definition braces_of (s : string) : option string :=')
w('  match fst (text_of ascii_punct (new_parser s)) with')
w('  | Ok (Got (Some n)) => Some (braces_string n)')
w('  | _ => None\n  end.\n')
t = table('ast/braces_test.go', ['in', 'want'])
w('(** ast/braces_test.go, TestBraces. *)')
w('Definition braces_tests : list (string * string) := [')
w(';\n'.join('  (%s, %s)' % (coq(a), coq(b)) for a, b in t) + '].\n')
w('Example braces_tests_pass : map (fun t => braces_of (fst t)) braces_tests = map (fun t => Some (snd t)) braces_tests.')
w('Proof. vm_compute. reflexivity. Qed.')
open(os.path.join(ROOT, 'rocq/theories/RepoTests.v'), 'w', encoding='utf8').write('\n'.join(out) + '\n')
print(len(t), 'braces tests')

# logic/interp_test.go
src = open(os.path.join(REPO, 'logic/interp_test.go'), encoding='utf8').read()
t = re.findall(r'in:\s*%s,\s*(?://[^\n]*\n\s*)*want:\s*%s[,}]' % (LIT, LIT), src)
t = [(go_str(a), go_str(b)) for a, b in t]
out = []
w = out.append
w('''(** The tests of /repo/logic/interp_test.go, run on the model.  Generated by
    tools/gen_tests.py. *)

From Coq Require Import String NArith List Bool Arith.
From Verif Require Import Base Utf8 Ast AstCases LogicCases.
Import ListNotations.
Open Scope string_scope.
Open Scope list_scope.
Open Scope N_scope.

(** interp_test.go, tokenize and tokenLen, for the runes that occur. *)
Definition upper (r : N) : bool := in_range 65 90 r || (r =? rune_of "Λ").
Definition lower (r : N) : bool := in_range 97 122 r || (r =? rune_of "ι") || (r =? rune_of "λ").
Definition digit (r : N) : bool := in_range 48 57 r.
Fixpoint span (f : N -> bool) (l : list N) : list N * list N :=
  match l with
  | r :: l' => if f r then let (a, b) := span f l' in (r :: a, b) else ([], l)
  | [] => ([], [])
  end.
Fixpoint tokenize (fuel : nat) (l : list N) : list (list N) :=
  match fuel, l with
  | S f, r :: l' =>
      if r =? 32 then tokenize f l'
      else if upper r then
        let (a, b) := span upper l in let (c, d) := span digit b in (a ++ c) :: tokenize f d
      else if lower r then let (a, b) := span lower l in a :: tokenize f b
      else [r] :: tokenize f l'
  | _, _ => []
  end.
Definition tokens (s : string) : list string :=
  map of_runes (tokenize (String.length s) (runes s)).

(** The loop of interpTest.run: equal up to a renaming of the variables. *)
Fixpoint same_tokens (got want : list string) (vars : list (string * string)) : bool :=
  match got, want with
  | [], [] => true
  | g :: got', w :: want' =>
      if negb (upper (rune_of w)) then String.eqb g w && same_tokens got' want' vars
      else upper (rune_of g) &&
           match find (fun p => String.eqb (fst p) w) vars with
           | None => same_tokens got' want' ((w, g) :: vars)
           | Some (_, v) => String.eqb v g && same_tokens got' want' vars
           end
  | _, _ => false
  end.
Definition passes (t : string * string) : bool :=
  match logic_string (fst t) with
  | Ok got => same_tokens (tokens got) (tokens (snd t)) []
  | _ => false
  end.
''')
w('Definition interp_tests : list (string * string) := [')
w(';\n'.join('  (%s, %s)' % (coq(a), coq(b)) for a, b in t) + '].\n')
w('Example interp_tests_pass : forallb passes interp_tests = true.')
w('Proof. vm_compute. reflexivity. Qed.')
open(os.path.join(ROOT, 'rocq/theories/LogicTests.v'), 'w', encoding='utf8').write('\n'.join(out) + '\n')
print(len(t), 'interp tests')
