(** Theorems about unpacking archives: C59. *)
From Coq Require Import String.
From Verif Require Import Base TarModel TarSpec TarProofs.

Definition str (s : string) : bytes := list_byte_of_string s.
Arguments str s%string.
(** A file system with the directories /home and /home/me, the process in the latter. *)
Definition me : path := [str "me"; str "home"].
Definition disk : fs := fun p => if path_eqb p [] || path_eqb p [str "home"] || path_eqb p me then Some Dir else None.
Lemma disk_sound : sound disk.
Proof.
  split; [reflexivity|]. intros c p H. unfold disk in *.
  destruct (path_eqb_spec (c :: p) []) as [E|_]; [discriminate|].
  destruct (path_eqb_spec (c :: p) [str "home"]) as [E|_]; [injection E as _ ->; reflexivity|].
  destruct (path_eqb_spec (c :: p) me) as [E|_]; [injection E as _ ->; reflexivity|]. destruct (H eq_refl).
Qed.
(** a/, a/b, a/c/../d/., a/b again. *)
Definition pack : list entry :=
  [EDir (str "a/"); EFile (str "a/b") (str "1"); EDir (str "./a/c"); EFile (str "a/c/../d/.") (str "2"); EFile (str "a/b") (str "3")].

(** ** C59 *)

(** Archives whose names do not lead out of the directory: whatever happens, errors in the archive included, nothing changes
    outside of the directory given, but for directories made on the way to it. *)
Theorem C59_nothing_outside_partial : forall cwd dist l f, dist <> [] ->
  (forall e n, In e l -> name_of e = Some n -> stays n = true) ->
  forall q, ~ under (place cwd dist) q ->
  let f1 := fst (untar cwd dist l f) in f1 q = f q \/ (f q = None /\ f1 q = Some Dir /\ under q (place cwd dist)).
Proof. intros cwd dist l f Hd Hn q Hq. exact (untar_kept cwd dist Hd l f Hn q Hq). Qed.
Print Assumptions C59_nothing_outside_partial.
Example C59_nothing_outside_ex :
  forallb (fun e => match name_of e with Some n => stays n | None => true end) pack = true
  /\ place me (str "x/./y") = [str "y"; str "x"; str "me"; str "home"]
  /\ fst (untar me (str "x/./y") (pack ++ [ETorn (str "a/e") (str "4"); EFile (str "a/f") []]) disk) [str "e"; str "a"; str "y"; str "x"; str "me"; str "home"] = Some (File (str "4"))
  /\ fst (untar me (str "x/./y") pack disk) [str "x"; str "me"; str "home"] = Some Dir.
Proof. vm_compute. auto. Qed.

(** When no error is returned every file has the content the archive last gives it, every directory is there with those
    above it, and nothing else changes. *)
Theorem C59_contents : forall cwd dist l f, dist <> [] -> sound f -> snd (untar cwd dist l f) = false ->
  let d := place cwd dist in let f1 := fst (untar cwd dist l f) in
  sound f1 /\ forall p,
    match last_content d l p with
    | Some b => f1 p = Some (File b)
    | None => (has_dir d l p -> f1 p = Some Dir) /\ (~ has_dir d l p -> f1 p = f p)
    end.
Proof.
  intros cwd dist l f Hd Hs E d f1. split; [|intros p; exact (untar_told cwd dist Hd l f p Hs E)].
  unfold f1. clear E f1. revert f Hs. induction l as [|e l IH]; intros f Hs; [exact Hs|]. cbn [untar].
  pose proof (one_sound cwd dist Hd e f Hs) as S1. destruct (unpack_one cwd dist e f) as [f2 [|]]; [exact S1|exact (IH _ S1)].
Qed.
Print Assumptions C59_contents.
Example C59_contents_ex :
  sound disk /\ snd (untar me (str ".") pack disk) = false
  /\ map (fun p => fst (untar me (str ".") pack disk) (p ++ me)) [[str "b"; str "a"]; [str "d"; str "a"]; [str "c"; str "a"]; [str "e"; str "a"]]
     = [Some (File (str "3")); Some (File (str "2")); Some Dir; None].
Proof. split; [exact disk_sound|]. vm_compute. auto. Qed.

(** An archive whose names stay inside, which lists directories before what is in them and uses no path for a file and a
    directory, is unpacked into an empty directory without error. *)
Theorem C59_unpacks_partial : forall cwd dist l f, dist <> [] -> sound f -> empty_dir f (place cwd dist) ->
  orderly (place cwd dist) l -> snd (untar cwd dist l f) = false.
Proof. intros cwd dist l f Hd. exact (untar_works cwd dist Hd l f). Qed.
Print Assumptions C59_unpacks_partial.
Definition small : list entry := [EDir (str "a"); EFile (str "a/b") (str "1"); EFile (str "c") (str "2")].
Example C59_unpacks_ex : sound disk /\ empty_dir disk (place me (str "./")) /\ orderly (place me (str "./")) small.
Proof.
  split; [exact disk_sound|]. split.
  - split; [reflexivity|]. intros p [l ->] N. change (place me (str "./")) with me in *. unfold disk.
    destruct l as [|c l]; [destruct (N eq_refl)|].
    destruct (path_eqb_spec ((c :: l) ++ me) []) as [E|_]; [discriminate|].
    destruct (path_eqb_spec ((c :: l) ++ me) [str "home"]) as [E|_];
      [apply (f_equal (@List.length comp)) in E; rewrite app_length in E; cbn in E; lia|].
    destruct (path_eqb_spec ((c :: l) ++ me) me) as [E|_];
      [apply (f_equal (@List.length comp)) in E; rewrite app_length in E; cbn in E; lia|]. reflexivity.
  - split; [|split].
    + intros e [<-|[<-|[<-|[]]]].
      * exists (str "a"). split; [reflexivity|left; reflexivity].
      * exists (str "a/b"). split; [reflexivity|right; exists (str "1"); reflexivity].
      * exists (str "c"). split; [reflexivity|right; exists (str "2"); reflexivity].
    + intros pre n b post E. unfold small in E.
      destruct pre as [|x [|y [|z pre]]]; cbn [app] in E; [discriminate E| | |].
      * injection E as <- <- <- _. split; [vm_compute; discriminate|]. right. exists (str "a"). split; [left; reflexivity|]. exists []. reflexivity.
      * injection E as _ _ <- <- _. split; [vm_compute; discriminate|]. left. reflexivity.
      * injection E as _ _ _ E. destruct pre; discriminate E.
    + intros n b n' [A|[A|[A|[]]]] [B|[B|[B|[]]]]; try discriminate A; try discriminate B; injection A as <- <-; injection B as <-;
        intros [l E]; vm_compute in E; apply (f_equal (@rev comp)) in E; rewrite rev_app_distr in E; discriminate E.
Qed.

(** A name with [..] writes over a file beside the directory; with an empty name of the directory an absolute name does so
    anywhere. *)
Theorem C59_nothing_outside_refuted : exists q,
  let f := put disk q (File (str "secret")) in
  ~ under (place me (str "out")) q /\ sound f
  /\ fst (untar me (str "out") [EFile (str "../x") (str "evil")] f) q = Some (File (str "evil"))
  /\ snd (untar me (str "out") [EFile (str "../x") (str "evil")] f) = false
  /\ fst (untar (str "out" :: me) [] [EFile (str "/home/me/x") (str "evil")] f) q = Some (File (str "evil")).
Proof.
  exists (str "x" :: me). split; [|split].
  - intros [l E]. apply (f_equal (@rev comp)) in E. rewrite rev_app_distr in E. discriminate E.
  - apply put_sound; [exact disk_sound|reflexivity|discriminate].
  - vm_compute. auto.
Qed.
Print Assumptions C59_nothing_outside_refuted.

(** An archive without entries for its directories is not unpacked, though its names stay inside. *)
Theorem C59_unpacks_refuted :
  stays (str "package/main.js") = true /\ sound disk /\
  forall b l, snd (untar me (str ".") (EFile (str "package/main.js") b :: l) disk) = true
    /\ forall p, fst (untar me (str ".") (EFile (str "package/main.js") b :: l) disk) p = disk p.
Proof. split; [reflexivity|]. split; [exact disk_sound|]. intros b l. split; reflexivity. Qed.
Print Assumptions C59_unpacks_refuted.
