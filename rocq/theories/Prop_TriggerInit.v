(** * C88: a kqueue or FEN watcher that cannot be set up. *)
From Verif Require Import Base TriggerInit SpecTriggerInit.
Local Open Scope Z_scope.

Lemma program_lookup X n : program X !! n = IApp <$> X !! n.
Proof. unfold program. by rewrite lookup_fmap. Qed.
Lemma program_none X n : X !! n = None → program X !! n = None.
Proof. intros H. by rewrite program_lookup, H. Qed.

(** kqueue: with everything granted the watcher starts, with a kqueue and a pipe of its own;
    otherwise it does not start. *)
Theorem C88_started X A : proper X → answers_ok X A →
  (io_end (kq_newWatcher (program X) A) = IStarted ↔ granted A) ∧
  (granted A → ∃ n r w, io_tab (kq_newWatcher (program X) A) = {[n := IPort; r := IPipR; w := IPipW]} ∪ program X ∧
     NoDup [n; r; w] ∧ Forall (λ m, X !! m = None) [n; r; w] ∧ io_log (kq_newWatcher (program X) A) = []).
Proof.
  intros HX [H1 H2]. unfold granted, kq_newWatcher, kq_init.
  destruct A as [[n|] [[r w]|] [|]]; cbn [ia_kq ia_pipe ia_kev io_end io_tab io_log] in *;
    try (split; [split; [by case_match|intros (? & ? & ?); destruct_and?; by (discriminate || (exfalso; by eapply is_Some_None))]|intros (? & ? & ?); by (discriminate || (exfalso; by eapply is_Some_None))]).
  destruct (H1 n eq_refl) as [? Hn]. destruct (H2 n r w eq_refl eq_refl) as (? & ? & Hr & Hw & ? & ? & ?).
  split; [split; [intros _; by repeat split; eexists|done]|]. intros _. exists n, r, w. split_and!; [| | |done].
  - apply map_eq. intros m. apply option_eq. intros k. 
    rewrite lookup_union_Some_raw, !lookup_insert_Some, !lookup_insert_None, lookup_singleton_None, lookup_singleton_Some. naive_solver.
  - repeat (apply NoDup_cons; split; [rewrite ?elem_of_cons, elem_of_nil; intros Hq; destruct_or?; congruence|]). apply NoDup_nil_2.
  - by repeat constructor.
Qed.
(** If there is no kqueue or no pipe to be had, every Watch will report it (watcherStub, C73),
    the descriptors of the program are as before, and nothing of the library is left open:
    provided descriptor 0 is not open for writing.  (It is not even touched if it is closed.) *)
Theorem C88_stub_partial X A : answers_ok X A → ia_kq A = None ∨ ia_pipe A = None → X !! 0 ≠ Some true →
  io_end (kq_newWatcher (program X) A) = IStub ∧ io_tab (kq_newWatcher (program X) A) = program X ∧
  (X !! 0 = None → ¬ touches (io_log (kq_newWatcher (program X) A))).
Proof.
  intros [H1 _] Hf H0. unfold kq_newWatcher, kq_init. destruct A as [[n|] p k]; cbn [ia_kq ia_pipe ia_kev] in *.
  - destruct p as [|]; [by destruct Hf|]. destruct (H1 n eq_refl) as [_ Hn]. apply program_none in Hn.
    rewrite delete_insert, lookup_insert by done. rewrite program_lookup.
    assert (writable (IApp <$> X !! 0) = false) as ->. { destruct (X !! 0) as [[]|]; done. }
    cbn [io_end io_tab io_log app]. split_and!; [done..|]. intros ->. intros (m & w & Hq). rewrite !elem_of_cons, elem_of_nil in Hq.
    destruct Hq as [Hq|[ok Hq]]; [|rewrite !elem_of_cons, elem_of_nil in Hq]; destruct_or?; done.
  - rewrite program_lookup. assert (writable (IApp <$> X !! 0) = false) as ->. { destruct (X !! 0) as [[]|]; done. }
    cbn [io_end io_tab io_log app]. split_and!; [done..|]. intros ->. intros (m & w & Hq). rewrite !elem_of_cons, elem_of_nil in Hq.
    destruct Hq as [Hq|[ok Hq]]; [|rewrite !elem_of_cons, elem_of_nil in Hq]; destruct_or?; done.
Qed.
(** If descriptor 0 is open for writing, such as a terminal, newWatcher writes a zero byte to
    it and does not return: the program does not start. *)
Theorem C88_stdin_refuted X A : answers_ok X A → ia_kq A = None ∨ ia_pipe A = None → X !! 0 = Some true →
  io_end (kq_newWatcher (program X) A) = IStuck ∧ IStop 0 (Some (IApp true)) true ∈ io_log (kq_newWatcher (program X) A).
Proof.
  intros [H1 _] Hf H0. unfold kq_newWatcher, kq_init. destruct A as [[n|] p k]; cbn [ia_kq ia_pipe ia_kev] in *.
  - destruct p as [|]; [by destruct Hf|]. destruct (H1 n eq_refl) as [_ Hn]. apply program_none in Hn.
    rewrite delete_insert, lookup_insert by done. rewrite program_lookup, H0. cbn. split; [done|]. rewrite !elem_of_cons. auto.
  - rewrite program_lookup, H0. cbn. split; [done|]. rewrite !elem_of_cons. auto.
Qed.
(** If the pipe cannot be registered with the kqueue, newWatcher never returns and leaves the
    pipe open, whatever descriptors the program has. *)
Theorem C88_register_refuted X A n r w : answers_ok X A → ia_kq A = Some n → ia_pipe A = Some (r, w) → ia_kev A = false →
  io_end (kq_newWatcher (program X) A) = IStuck ∧
  io_tab (kq_newWatcher (program X) A) !! r = Some IPipR ∧ io_tab (kq_newWatcher (program X) A) !! w = Some IPipW.
Proof.
  intros [H1 H2] Hk Hp Hv. destruct (H2 n r w Hk Hp) as (? & ? & Hr & Hw & ? & ? & ?). unfold kq_newWatcher, kq_init. rewrite Hk, Hp, Hv.
  assert (delete n (<[w:=IPipW]> (<[r:=IPipR]> (<[n:=IPort]> (program X)))) !! w = Some IPipW) as E by (by simplify_map_eq).
  rewrite E. cbn [writable io_end io_tab]. split_and!; [done| |done]. by simplify_map_eq.
Qed.
(** FEN: if there is no event port to be had, every Watch will report it; no descriptor is
    touched, none is left open.  Otherwise the watcher starts. *)
Theorem C88_fen X port : proper X → (∀ n, port = Some n → 0 ≤ n ∧ X !! n = None) →
  match port with
  | None => io_end (fen_newWatcher (program X) port) = IStub ∧ io_tab (fen_newWatcher (program X) port) = program X
  | Some n => io_end (fen_newWatcher (program X) port) = IStarted ∧ io_tab (fen_newWatcher (program X) port) = <[n := IPort]> (program X)
  end ∧ ¬ touches (io_log (fen_newWatcher (program X) port)).
Proof.
  intros HX Hp. unfold fen_newWatcher. destruct port as [n|].
  - split; [done|]. intros (m & w & [[]%elem_of_nil|[ok []%elem_of_nil]]).
  - assert (X !! (-1) = None) as E. { destruct (X !! (-1)) eqn:E; [|done]. specialize (HX (-1) ltac:(by eexists)). lia. }
    rewrite (program_none _ _ E). cbn [io_end io_tab io_log]. split; [done|]. intros (m & w & Hq). rewrite !elem_of_cons, elem_of_nil in Hq.
    destruct Hq as [Hq|[ok Hq]]; [|rewrite !elem_of_cons, elem_of_nil in Hq]; destruct_or?; done.
Qed.
(** A program with standard input (read-only), output and error. *)
Definition std3 : gmap Z bool := {[0 := false; 1 := true; 2 := true]}.
Example C88_ex : proper std3 ∧
  answers_ok std3 (IA (Some 3) (Some (4, 5)) true) ∧ granted (IA (Some 3) (Some (4, 5)) true) ∧
  answers_ok std3 (IA (Some 3) None true) ∧ std3 !! 0 ≠ Some true ∧ io_log (kq_newWatcher (program std3) (IA (Some 3) None true)) = [IClose 3 (Some IPort); IStop 0 (Some (IApp false)) false].
Proof.
  assert (granted (IA (Some 3) (Some (4, 5)) true)) as Hg by (by repeat split; eexists).
  split_and!; try exact Hg; try done.
  - intros n [x Hx]. unfold std3 in Hx. rewrite !lookup_insert_Some, lookup_singleton_Some in Hx. lia.
  - split; cbn [ia_kq ia_pipe]; [intros n [= <-]; by split|]. by intros n r w [= <-] [= <- <-].
  - split; cbn [ia_kq ia_pipe]; [intros n [= <-]; by split|done].
Qed.
Print Assumptions C88_started.
Print Assumptions C88_stub_partial.
Print Assumptions C88_stdin_refuted.
Print Assumptions C88_register_refuted.
Print Assumptions C88_fen.
