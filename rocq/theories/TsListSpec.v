(** How lists of entries are written, and the rules for the members of a tuple. *)
From Verif Require Import Base TokenModel LexModel ParseBase ExprModel TsListModel.

Section Spec.
Variables (A : Type) (item : pst -> pres A) (close : tv).
(** Entries with commas between them up to the token [close], which is not read; with [trailing] a comma may stand before
    it.  No entry begins with [close]. *)
Inductive commas (trailing : bool) : pst -> list A -> pst -> Prop :=
| C_one s a s1 : at_tok close s = false -> item s = POk a s1 -> at_tok close s1 = true -> commas trailing s [a] s1
| C_trail s a s1 : at_tok close s = false -> item s = POk a s1 -> at_tok T_COMMA s1 = true -> trailing = true ->
    at_tok close (next s1) = true -> commas trailing s [a] (next s1)
| C_more s a s1 l s' : at_tok close s = false -> item s = POk a s1 -> at_tok T_COMMA s1 = true -> commas trailing (next s1) l s' ->
    commas trailing s (a :: l) s'.
(** Entries one after the other up to [close]: between two of them, and after the last, a comma or nothing. *)
Inductive loose : pst -> list A -> pst -> Prop :=
| L_end s : at_tok close s = true -> loose s [] s
| L_plain s a s1 l s' : at_tok close s = false -> item s = POk a s1 -> at_tok T_COMMA s1 = false -> loose s1 l s' -> loose s (a :: l) s'
| L_comma s a s1 l s' : at_tok close s = false -> item s = POk a s1 -> at_tok T_COMMA s1 = true -> loose (next s1) l s' -> loose s (a :: l) s'.
(** The same with at least one entry and no comma after the last. *)
Inductive joined : pst -> list A -> pst -> Prop :=
| J_one s a s1 : item s = POk a s1 -> at_tok close s1 = true -> joined s [a] s1
| J_plain s a s1 l s' : item s = POk a s1 -> at_tok close s1 = false -> at_tok T_COMMA s1 = false -> joined s1 l s' -> joined s (a :: l) s'
| J_comma s a s1 l s' : item s = POk a s1 -> at_tok T_COMMA s1 = true -> joined (next s1) l s' -> joined s (a :: l) s'.
(** Entries with nothing between them up to [close]. *)
Inductive plain : pst -> list A -> pst -> Prop :=
| P_end s : at_tok close s = true -> plain s [] s
| P_more s a s1 l s' : at_tok close s = false -> item s = POk a s1 -> plain s1 l s' -> plain s (a :: l) s'.
(** Entries up to [close], each after a comma or nothing. *)
Inductive leads : pst -> list A -> pst -> Prop :=
| E_end s : at_tok close s = true -> leads s [] s
| E_plain s a s1 l s' : at_tok close s = false -> at_tok T_COMMA s = false -> item s = POk a s1 -> leads s1 l s' -> leads s (a :: l) s'
| E_comma s a s1 l s' : at_tok T_COMMA s = true -> item (next s) = POk a s1 -> leads s1 l s' -> leads s (a :: l) s'.
End Spec.
Arguments commas {A} _ _ _ _ _ _.
Arguments loose {A} _ _ _ _ _.
Arguments joined {A} _ _ _ _ _.
Arguments plain {A} _ _ _ _ _.
Arguments leads {A} _ _ _ _ _.

(** The rules for a tuple: no member that must be there comes after one that may be missing, and when a member has a label
    all have one. *)
Definition optional (k : mkind) : Prop := k = MNamed true \/ k = MOpt.
Definition required (k : mkind) : Prop := k = MNamed false \/ k = MPlain.
Definition has_label (k : mkind) : Prop := (exists o, k = MNamed o) \/ k = MRest true.
Definition tuple_rules (ks : list mkind) : Prop :=
  (forall l1 a l2 b l3, ks = l1 ++ a :: l2 ++ b :: l3 -> optional a -> ~ required b) /\
  ((exists o, In (MNamed o) ks) -> forall k, In k ks -> has_label k).
