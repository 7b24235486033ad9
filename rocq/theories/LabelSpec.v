(** Where break and continue may stand (ECMAScript 14.8.1, 14.9.1, 8.3). *)
From Verif Require Import Base LabelModel.

(** The statements around a jump inside its function, innermost first. *)
Inductive encl := E_label (n : bytes) (id : nat) | E_loop (id : nat) | E_switch | E_try.
Inductive jump := JBreak (n : option bytes) | JCont (n : option bytes).

(** The jumps of a statement in source order, each with the statements around it. *)
Fixpoint jumps (s : stm) (around : list encl) : list (jump * list encl) :=
  match s with
  | SOther => []
  | SFun bodies => flat_map (flat_map (fun s => jumps s [])) bodies
  | SBlock l => flat_map (fun s => jumps s around) l
  | SIf c a => jumps c around ++ match a with Some s => jumps s around | None => [] end
  | SLoop id b => jumps b (E_loop id :: around)
  | SSwitch cl => flat_map (flat_map (fun s => jumps s (E_switch :: around))) cl
  | STry b c f =>
      flat_map (fun s => jumps s (E_try :: around)) b
      ++ match c with Some l => flat_map (fun s => jumps s around) l | None => [] end
      ++ match f with Some l => flat_map (fun s => jumps s around) l | None => [] end
  | SLabel id n b => jumps b (E_label n id :: around)
  | SBreak n => [(JBreak n, around)]
  | SCont n => [(JCont n, around)]
  end.
Definition jumps_of (l : list stm) : list (jump * list encl) := flat_map (fun s => jumps s []) l.

Definition in_loop (around : list encl) : Prop := exists id, In (E_loop id) around.
Definition in_switch (around : list encl) : Prop := In E_switch around.
Definition in_try (around : list encl) : Prop := In E_try around.
Fixpoint innermost_loop (around : list encl) : option nat :=
  match around with [] => None | E_loop id :: _ => Some id | _ :: r => innermost_loop r end.
Fixpoint innermost_label (n : bytes) (around : list encl) : option nat :=
  match around with
  | [] => None
  | E_label m id :: r => if bytes_eqb n m then Some id else innermost_label n r
  | _ :: r => innermost_label n r
  end.

(** A jump is allowed where it stands. *)
Definition allowed (j : jump * list encl) : Prop :=
  match j with
  | (JBreak (Some n), a) | (JCont (Some n), a) => innermost_label n a <> None
  | (JBreak None, a) => in_loop a \/ in_switch a
  | (JCont None, a) => in_loop a
  end.
(** The statement a jump is to name. *)
Definition goal (j : jump * list encl) : option nat :=
  match j with
  | (JBreak (Some n), a) | (JCont (Some n), a) => innermost_label n a
  | (JBreak None, _) => None
  | (JCont None, a) => innermost_loop a
  end.

(** The labels right before a statement. *)
Fixpoint chain (s : stm) : list bytes := match s with SLabel _ n b => n :: chain b | _ => [] end.
(** All the statements inside a statement, itself included. *)
Fixpoint subs (s : stm) : list stm :=
  s :: match s with
       | SFun l | SSwitch l => flat_map (flat_map subs) l
       | SBlock l => flat_map subs l
       | SIf c a => subs c ++ match a with Some s => subs s | None => [] end
       | SLoop _ b | SLabel _ _ b => subs b
       | STry b c f =>
           flat_map subs b ++ match c with Some l => flat_map subs l | None => [] end
           ++ match f with Some l => flat_map subs l | None => [] end
       | SOther | SBreak _ | SCont _ => []
       end.

(** No labelled statement with the name of one around it in the function. *)
Fixpoint distinct (s : stm) (names : list bytes) : Prop :=
  match s with
  | SOther | SBreak _ | SCont _ => True
  | SFun bodies => fold_right (fun l P => fold_right (fun s Q => distinct s [] /\ Q) P l) True bodies
  | SBlock l => fold_right (fun s P => distinct s names /\ P) True l
  | SIf c a => distinct c names /\ match a with Some s => distinct s names | None => True end
  | SLoop _ b => distinct b names
  | SSwitch cl => fold_right (fun l P => fold_right (fun s Q => distinct s names /\ Q) P l) True cl
  | STry b c f =>
      fold_right (fun s P => distinct s names /\ P) True b
      /\ match c with Some l => fold_right (fun s P => distinct s names /\ P) True l | None => True end
      /\ match f with Some l => fold_right (fun s P => distinct s names /\ P) True l | None => True end
  | SLabel _ n b => ~ In n names /\ distinct b (n :: names)
  end.
(** A label in the first branch of an if, not inside a block or loop there, and a second branch. *)
Fixpoint bare_label (s : stm) : bool :=
  match s with
  | SLabel _ _ _ => true
  | SIf c a => bare_label c || match a with Some s => bare_label s | None => false end
  | _ => false
  end.
(** Not so. *)
Definition calm (s : stm) : Prop := match s with SIf c (Some _) => bare_label c = false | _ => True end.
