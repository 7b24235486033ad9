(** Theorems about the file the command line tool writes: C60. *)
From Coq Require Import String.
From Verif Require Import Base TarModel TarSpec TarProofs OutModel OutSpec OutProofs TarProps.

Lemma write_other : forall p b (f : fs) q, p <> q -> fst (write_file p b f) q = f q.
Proof.
  intros [|c up] b f q N; [reflexivity|]. unfold write_file. destruct (f (c :: up)) as [[|]|]; destruct (f up) as [[|]|]; try reflexivity; apply put_other, N.
Qed.

Section Tool.
(** Parsing, converting and printing (that they end is no part of this), and what profiles hold. *)
Variable conv : bytes -> option bytes.
Variables cpu heap : bytes.

(** Missing for the full claim: profiles, and a file that already has the name of the result, see below.
    Without profiles: when the path names a file, the tool does not panic.  With a syntax error in the file nothing is
    written.  Otherwise the result is in a file beside the source, named after it, unless a directory is there, and nothing
    else changes; the source stays as it is. *)
Theorem C60_result_beside_source_partial : forall cwd file f src, sound f -> read_file cwd file f = Some src ->
  exists c d o, names_source f cwd file c d src /\ named_after c o /\ o <> c
    /\ fst (inspect conv cpu heap cwd false file f) = Ends
    /\ let f1 := snd (inspect conv cpu heap cwd false file f) in
       f1 (c :: d) = Some (File src)
       /\ (forall q, q <> o :: d -> f1 q = f q)
       /\ f1 (o :: d) = match conv src with
                        | Some out => match f (o :: d) with Some Dir => Some Dir | _ => Some (File out) end
                        | None => f (o :: d)
                        end.
Proof.
  intros cwd file f src S R. destruct (source_name f cwd file src S R) as (d & P & Pd & Fs & Fd). destruct (out_place cwd file) as (p & o & E & Na & Er).
  set (c := snd (split_path file)) in *. rewrite Pd in Er. exists c, d, o. split; [split; assumption|]. split; [exact Na|].
  pose proof (named_other _ _ Na) as Ne. split; [congruence|]. unfold inspect. rewrite R. unfold print_ast.
  destruct (conv src) as [out|]; [|split; [reflexivity|]; split; [exact Fs|]; split; reflexivity].
  rewrite E. split; [reflexivity|]. cbn zeta. cbn [snd]. rewrite Er. unfold write_file. rewrite Fd.
  assert (Ns : o :: d <> c :: d) by congruence.
  destruct (f (o :: d)) as [[|b]|] eqn:Fo; cbn [fst]; (split; [|split]).
  - exact Fs.
  - reflexivity.
  - exact Fo.
  - rewrite put_other by exact Ns. exact Fs.
  - intros q Q. apply put_other. congruence.
  - apply put_same.
  - rewrite put_other by exact Ns. exact Fs.
  - intros q Q. apply put_other. congruence.
  - apply put_same.
Qed.

(** With or without profiles, and whether or not it fails: nothing changes but the result and, with profiles, two files in
    the directory of the process. *)
Theorem C60_nothing_else : forall cwd perf file f src, sound f -> read_file cwd file f = Some src ->
  exists c d o, names_source f cwd file c d src /\ named_after c o
    /\ forall q, q <> o :: d -> (perf = true -> q <> str "cpu.prof" :: cwd /\ q <> str "heap.out" :: cwd) ->
       snd (inspect conv cpu heap cwd perf file f) q = f q.
Proof.
  intros cwd perf file f src S R. destruct (source_name f cwd file src S R) as (d & P & Pd & Fs & Fd). destruct (out_place cwd file) as (p & o & E & Na & Er).
  set (c := snd (split_path file)) in *. rewrite Pd in Er. exists c, d, o. split; [split; assumption|]. split; [exact Na|].
  intros q Q Qp. unfold inspect. rewrite R. unfold print_ast. rewrite E, Er. cbv zeta.
  assert (G : forall g : fs, g q = f q -> snd (match conv src with Some out => (Ends, fst (write_file (o :: d) out g)) | None => (if perf then Panics else Ends, g) end) q = f q).
  { intros g Hg. destruct (conv src) as [out|]; [|exact Hg]. cbn [snd]. rewrite write_other by congruence. exact Hg. }
  destruct perf; [|apply G; reflexivity]. destruct (Qp eq_refl) as [Q1 Q2].
  pose proof (write_other (str "cpu.prof" :: cwd) cpu f q ltac:(congruence)) as W1. change (str "cpu.prof") with [x63; x70; x75; x2e; x70; x72; x6f; x66] in W1.
  destruct (write_file _ cpu f) as [f1 [|]]; [exact W1|]. cbn [fst] in W1.
  pose proof (write_other (str "heap.out" :: cwd) heap f1 q ltac:(congruence)) as W2. change (str "heap.out") with [x68; x65; x61; x70; x2e; x6f; x75; x74] in W2.
  destruct (write_file _ heap f1) as [f2 [|]]; cbn [fst] in W2; [cbn [snd]; congruence|]. apply G. congruence.
Qed.

(** A path that names no file: the tool panics and writes nothing. *)
Theorem C60_no_source : forall cwd perf file f, read_file cwd file f = None -> inspect conv cpu heap cwd perf file f = (Panics, f).
Proof. intros cwd perf file f R. unfold inspect. rewrite R. reflexivity. Qed.
End Tool.
Print Assumptions C60_result_beside_source_partial.
Print Assumptions C60_nothing_else.
Print Assumptions C60_no_source.

(** A name has one result, and different names have different ones: no two sources of a directory share a result. *)
Theorem C60_results_apart : forall c1 c2 o1 o2, named_after c1 o1 -> named_after c2 o2 -> (c1 = c2 <-> o1 = o2).
Proof.
  intros c1 c2 o1 o2 H1 H2. split; intros ->; [exact (named_fun _ _ _ H1 H2)|exact (named_inj _ _ _ H1 H2)].
Qed.
Print Assumptions C60_results_apart.

(** ** Where the full claim fails *)
Definition echo (s : bytes) : option bytes := Some (str "{}").
Definition with_file (n : string) (c : bytes) (f : fs) : fs := put f (str n :: me) (File c).
(** A file that has the name of the result is lost, even if it is a source itself. *)
Theorem C60_other_file_refuted : exists f file src other, sound f /\ read_file me file f = Some src
  /\ f (str "a_ast.js" :: me) = Some (File other)
  /\ snd (inspect echo [] [] me false file f) (str "a_ast.js" :: me) <> Some (File other).
Proof.
  exists (with_file "a_ast.js" (str "2") (with_file "a.js" (str "1") disk)), (str "../me/./a.js"), (str "1"), (str "2").
  split; [|vm_compute; split; [reflexivity|split; [reflexivity|discriminate]]].
  unfold with_file. split; [reflexivity|]. intros c p. unfold put.
  destruct (path_eqb_spec (str "a_ast.js" :: me) (c :: p)) as [E|_]; [injection E as _ <-; reflexivity|].
  destruct (path_eqb_spec (str "a.js" :: me) (c :: p)) as [E|_]; [injection E as _ <-; reflexivity|].
  intros H. apply disk_sound in H. destruct (path_eqb_spec (str "a_ast.js" :: me) p) as [<-|_]; [discriminate H|].
  destruct (path_eqb_spec (str "a.js" :: me) p) as [<-|_]; [discriminate H|]. exact H.
Qed.
Print Assumptions C60_other_file_refuted.
(** With profiles the source itself is lost when it has the name of one. *)
Theorem C60_profile_refuted : exists f file src, sound f /\ read_file me file f = Some src
  /\ snd (inspect echo (str "p") (str "q") me true file f) (str "heap.out" :: me) <> Some (File src)
  /\ place me file = str "heap.out" :: me.
Proof.
  exists (with_file "heap.out" (str "1") disk), (str "heap.out"), (str "1").
  split; [|vm_compute; split; [reflexivity|split; [discriminate|reflexivity]]].
  unfold with_file. split; [reflexivity|]. intros c p. unfold put.
  destruct (path_eqb_spec (str "heap.out" :: me) (c :: p)) as [E|_]; [injection E as _ <-; reflexivity|].
  intros H. apply disk_sound in H. destruct (path_eqb_spec (str "heap.out" :: me) p) as [<-|_]; [discriminate H|]. exact H.
Qed.
Print Assumptions C60_profile_refuted.
(** With profiles a syntax error makes the tool panic, which it does not do without. *)
Theorem C60_syntax_error_refuted : exists conv f file src, sound f /\ read_file me file f = Some src /\ conv src = None
  /\ fst (inspect conv [] [] me false file f) = Ends /\ fst (inspect conv [] [] me true file f) = Panics.
Proof.
  exists (fun _ => None), (with_file "a.js" (str "(") disk), (str "a.js"), (str "(").
  split; [|vm_compute; repeat split; reflexivity].
  unfold with_file. split; [reflexivity|]. intros c p. unfold put.
  destruct (path_eqb_spec (str "a.js" :: me) (c :: p)) as [E|_]; [injection E as _ <-; reflexivity|].
  intros H. apply disk_sound in H. destruct (path_eqb_spec (str "a.js" :: me) p) as [<-|_]; [discriminate H|]. exact H.
Qed.
Print Assumptions C60_syntax_error_refuted.

(** ** The hypotheses can be met *)
Example C60_ex :
  let f := with_file "a.b.js" (str "1") disk in
  read_file me (str "..//me/a.b.js") f = Some (str "1")
  /\ snd (inspect echo [] [] me false (str "..//me/a.b.js") f) (str "a.b_ast.js" :: me) = Some (File (str "{}"))
  /\ snd (inspect echo (str "p") (str "q") me true (str "a.b.js") f) (str "cpu.prof" :: me) = Some (File (str "p"))
  /\ read_file me (str "a.b.js/") f = None /\ read_file me (str "x/../a.b.js") f = None.
Proof. vm_compute. auto. Qed.
Example C60_names_ex : named_after (str "a.b.js") (str "a.b_ast.js") /\ named_after (str "a") (str "a_ast") /\ named_after (str "..") (str "._ast.").
Proof.
  split; [apply (na_ext (str "a.b") (str "js"))|split; [apply (na_plain (str "a"))|apply (na_ext (str ".") [])]]; intro H; cbn in H; repeat destruct H as [H|H]; try discriminate H; destruct H.
Qed.
