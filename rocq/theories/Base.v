(** Shared conventions: bytes, runes, small list helpers and tactics. *)
From Coq Require Export List Bool Arith ZArith Lia.
From Coq Require Export Strings.Byte.
From Coq Require String Ascii.
From Coq Require Import ZifyBool ZifyNat ZifyN.
Export ListNotations.
Global Open Scope list_scope.

(** A Go string / []byte is a list of bytes, a Go rune is an integer. *)
Definition bytes := list byte.
Notation rune := Z (only parsing).

(** Value of a byte as an integer in 0..255. *)
Definition b2z (b : byte) : Z := Z.of_N (Byte.to_N b).

(** Truncation of an integer to a byte, Go's [byte(x)] for 0 <= x < 256. *)
Definition z2b (z : Z) : byte :=
  match Byte.of_N (Z.to_N z) with Some b => b | None => x00 end.

(** ASCII literal as a byte string, for examples only. *)
Definition bs (s : String.string) : bytes := String.list_byte_of_string s.
Export String.StringSyntax.
Arguments bs s%string_scope.

Lemma b2z_range : forall b, (0 <= b2z b < 256)%Z.
Proof.
  intro b. unfold b2z. pose proof (Byte.to_N_bounded b). lia.
Qed.

Lemma z2b_b2z : forall b, z2b (b2z b) = b.
Proof.
  intro b. unfold z2b, b2z. rewrite N2Z.id, Byte.of_to_N. reflexivity.
Qed.

Lemma b2z_z2b : forall z, (0 <= z < 256)%Z -> b2z (z2b z) = z.
Proof.
  intros z Hz. unfold z2b.
  destruct (Byte.of_N (Z.to_N z)) as [b|] eqn:E.
  - unfold b2z. apply Byte.to_of_N in E. rewrite E. lia.
  - apply Byte.of_N_None_iff in E. lia.
Qed.

Lemma b2z_inj : forall a b, b2z a = b2z b -> a = b.
Proof.
  intros a b H. rewrite <- (z2b_b2z a), <- (z2b_b2z b), H. reflexivity.
Qed.

Ltac Zify.zify_post_hook ::= Z.div_mod_to_equations.

(** Equality of byte strings. *)
Fixpoint bytes_eqb (a b : bytes) : bool :=
  match a, b with
  | [], [] => true
  | x :: a', y :: b' => Byte.eqb x y && bytes_eqb a' b'
  | _, _ => false
  end.

Lemma bytes_eqb_spec : forall a b, bytes_eqb a b = true <-> a = b.
Proof.
  induction a as [|x a IH]; intros [|y b]; cbn; try (split; congruence).
  rewrite andb_true_iff, IH. split.
  - intros [H ->]. apply Byte.byte_dec_bl in H. congruence.
  - intros [= -> ->]. split; [apply Byte.byte_dec_lb|]; reflexivity.
Qed.
