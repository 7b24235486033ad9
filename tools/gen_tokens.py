"""Generates rocq/theories/TokenModel.v from the tables of ecma/parser/token.go and feature.go."""
import re, sys
src = open('/repo/ecma/parser/token.go').read()
lines = src.split('\n')
a = next(i for i, l in enumerate(lines) if 'T_ILLEGAL TokenValue = iota' in l)
b = next(i for i in range(a, len(lines)) if lines[i].strip() == ')')
names = []
for l in lines[a:b]:
    m = re.match(r'\s*(T_\w+)', l)
    if m: names.append(m.group(1))
kinds = {}
order = []
for m in re.finditer(r'\{(T_\w+), "((?:[^"\\]|\\.)*)", (\d+), (true|false), (true|false), (true|false)\},', src):
    kinds[m.group(1)] = m.groups()[1:]
    order.append(m.group(1))
assert order == names, 'TokenKinds order'
out = []
w = out.append
w('(** Token values, token kinds and keyword tables.  Generated by tools/gen_tokens.py from')
w('    ecma/parser/token.go and ecma/parser/feature.go. *)')
w('From Verif Require Import Base.')
w('')
w('(** ecma/parser/token.go:%d-%d TokenValue. *)' % (a + 1, b + 1))
w('Inductive tv :=')
for n in names: w('| ' + n)
w('.')
w('')
w('(** The integer value (iota) of a token value. *)')
w('Definition tv_num (t : tv) : N :=')
w('  match t with')
for i, n in enumerate(names): w('  | %s => %d' % (n, i))
w('  end.')
w('Definition tv_eqb (a b : tv) : bool := N.eqb (tv_num a) (tv_num b).')
w('')
def table(field, ty, title, default, conv):
    w('(** ecma/parser/token.go:%d-%d the column %s of TokenKinds. *)' % (ka, kb, title))
    w('Definition %s (t : tv) : %s :=' % (field[0], ty))
    w('  match t with')
    for n in names:
        v = kinds[n][field[1]]
        if v != default: w('  | %s => %s' % (n, conv(v)))
    w('  | _ => %s' % conv(default))
    w('  end.')
    w('')
ka = next(i for i, l in enumerate(lines) if 'var TokenKinds' in l) + 1
kb = next(i for i in range(ka, len(lines)) if lines[i] == '}') + 1
w('(** ecma/parser/token.go:%d-%d the column Name of TokenKinds. *)' % (ka, kb))
w('Definition tv_name (t : tv) : bytes :=')
w('  match t with')
for n in names: w('  | %s => bs "%s"' % (n, kinds[n][0]))
w('  end.')
w('')
table(('tv_pcd', 1), 'nat', 'Pcd', '0', str)
table(('tv_rassoc', 2), 'bool', 'RightAssoc', 'false', str)
table(('tv_before_expr', 3), 'bool', 'BeforeExpr', 'false', str)
table(('tv_start_expr', 4), 'bool', 'StartExpr', 'false', str)
ini = next(i for i, l in enumerate(lines) if l.startswith('func init()')) + 1
def between(x, y):
    i, j = names.index(x), names.index(y)
    return names[i + 1:j]
kw = between('T_KEYWORD_BEGIN', 'T_KEYWORD_END')
extra = re.findall(r'Keywords\[TokenKinds\[(T_\w+)\]\.Name\] = (T_\w+)', src)
assert all(x == y for x, y in extra)
kw += [x for x, _ in extra]
w('(** ecma/parser/token.go:%d- init: the keys of Keywords and StrictKeywords. *)' % ini)
w('Definition keyword_list : list tv := [%s].' % '; '.join(kw))
w('Definition strict_keyword_list : list tv := [%s].' % '; '.join(between('T_CTX_KEYWORD_STRICT_BEGIN', 'T_CTX_KEYWORD_STRICT_END')))
w('''
(** Look-up in a Go map from name to token value. *)
Fixpoint find_kw (l : list tv) (s : bytes) : option tv :=
  match l with [] => None | t :: r => if bytes_eqb (tv_name t) s then Some t else find_kw r s end.

(** ecma/parser/token.go:545-558 IsKeyword / Keywords[..], IsStrictKeyword / StrictKeywords[..]. *)
Definition keyword (s : bytes) : option tv := find_kw keyword_list s.
Definition strict_keyword (s : bytes) : option tv := find_kw strict_keyword_list s.

Definition tv_between (a t b : tv) : bool := (N.ltb (tv_num a) (tv_num t) && N.ltb (tv_num t) (tv_num b))%bool.

(** ecma/parser/token.go:39-46 IsKw. *)
Definition is_kw (t : tv) : bool :=
  tv_between T_KEYWORD_BEGIN t T_KEYWORD_END || tv_between T_CTX_KEYWORD_BEGIN t T_CTX_KEYWORD_END
  || tv_between T_CTX_KEYWORD_STRICT_BEGIN t T_CTX_KEYWORD_STRICT_END
  || existsb (tv_eqb t) [T_VOID; T_NULL; T_TRUE; T_FALSE; T_TYPE_OF; T_DELETE; T_IN; T_INSTANCE_OF].

(** ecma/parser/token.go:87-89 IsUnary. *)
Definition is_unary (t : tv) : bool := tv_between T_UNARY_OP_BEGIN t T_UNARY_OP_END.
''')
fsrc = open('/repo/ecma/parser/feature.go').read().split('\n')
fa = next(i for i, l in enumerate(fsrc) if 'FEAT_NONE' in l)
fb = next(i for i in range(fa, len(fsrc)) if fsrc[i] == ')')
w('(** ecma/parser/feature.go:%d-%d the feature flags: [1 << iota], iota = 1 for FEAT_STRICT. *)' % (fa + 1, fb + 1))
feats = []
for l in fsrc[fa + 1:fb]:
    m = re.match(r'\s*(FEAT_\w+)', l)
    if m: feats.append(m.group(1))
w('Definition FEAT_NONE : N := 0%N.')
for i, f in enumerate(feats): w('Definition %s : N := N.shiftl 1 %d.' % (f, i + 1))
w('Definition all_features : list N := [%s].' % '; '.join(feats))
w('''
(** [f & flag != 0]. *)
Definition has (f flag : N) : bool := negb (N.eqb (N.land f flag) 0).
''')
w('(** Every token value, and that [tv_eqb] is equality. *)')
w('Definition all_tv : list tv := [%s].' % '; '.join(names))
w('''Lemma tv_find : forall t, find (fun x => N.eqb (tv_num x) (tv_num t)) all_tv = Some t.
Proof. destruct t; reflexivity. Qed.
Lemma tv_eqb_spec : forall a b, tv_eqb a b = true <-> a = b.
Proof.
  intros a b. unfold tv_eqb. rewrite N.eqb_eq. split; [|intros ->; reflexivity].
  intros E. pose proof (tv_find a) as Ha. rewrite E, tv_find in Ha. congruence.
Qed.
''')
open('/verif/rocq/theories/TokenModel.v', 'w').write('\n'.join(out))
print(len(names), len(feats))
