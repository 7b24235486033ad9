(** Specification of checkpoints. *)
From Verif Require Import Base Utf8Model SourceModel TokenModel LexModel LexBufModel LexBufSpec LexChkModel.

(** The same lexer, as far as reading goes: the comments collected may differ, and so may the places of
    [<<] noted for TypeScript unless the lexer is in a TypeScript mode. *)
Definition ts_bits (k : N) : bool := negb (N.eqb (N.land k (N.lor LM_TS LM_TS_TYP_ARG)) 0).
Definition same_place (a b : lx) : Prop :=
  l_src a = l_src b /\ l_feat a = l_feat b /\ kinds a = kinds b /\ l_prt a = l_prt b /\ l_begin a = l_begin b /\ l_prevws a = l_prevws b.
Definition same_lexer (a b : lx) : Prop :=
  same_place a b /\ ((l_maybe_lsh a = l_maybe_lsh b /\ l_lsh a = l_lsh b) \/ forallb (fun k => negb (ts_bits k)) (kinds a) = true).

(** [stays d n l m]: starting with [n] modes, the operations [l] leave [m] of them and never pop or change
    one of the lowest [d]. *)
Inductive stays (d : nat) : nat -> list mact -> nat -> Prop :=
| sy_nil : forall n, stays d n [] n
| sy_push : forall n k i l m, stays d (S n) l m -> stays d n (MPush k i :: l) m
| sy_pop : forall n l m, d <= n -> stays d n l m -> stays d (S n) (MPop :: l) m
| sy_add : forall n k l m, d < n -> stays d n l m -> stays d n (MAdd k :: l) m
| sy_erase : forall n k l m, d < n -> stays d n l m -> stays d n (MErase k :: l) m.

Section Run.
Variable U : uni.
Variable entity : bytes -> option bytes.
Variable room : nat -> nat.
Notation cstep := (cstep U entity room).

(** [between d j k l k']: from [k] to [k'] by the actions [l], with [j] checkpoints on top of the one in
    question, all matched, and the lowest [d] modes left alone. *)
Inductive between (d : nat) : nat -> chk -> list caction -> chk -> Prop :=
| bt_nil : forall k, between d 0 k [] k
| bt_op : forall j k o t acts m k1 l k', stays d (ms_len (k_sl k)) acts m -> cstep k (COp o t acts) k1 -> between d j k1 l k' -> between d j k (COp o t acts :: l) k'
| bt_mode : forall j k a m k1 l k', stays d (ms_len (k_sl k)) [a] m -> cstep k (CMode a) k1 -> between d j k1 l k' -> between d j k (CMode a :: l) k'
| bt_take : forall j k k1 l k', cstep k CTake k1 -> between d j k1 l k' -> between d j k (CTake :: l) k'
| bt_save : forall j k k1 l k', cstep k CSave k1 -> between d (S j) k1 l k' -> between d j k (CSave :: l) k'
| bt_discard : forall j k k1 l k', cstep k CDiscard k1 -> between d j k1 l k' -> between d (S j) k (CDiscard :: l) k'
| bt_restore : forall j k k1 l k', cstep k CRestore k1 -> between d j k1 l k' -> between d (S j) k (CRestore :: l) k'.
End Run.
