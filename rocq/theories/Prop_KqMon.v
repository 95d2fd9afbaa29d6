(** * C92: kqueue: notes, calls and the monitor goroutine interleaved *)
From Verif Require Import Base Event Paths Clean SpecClean CleanFacts Trigger SpecTrigger SpecTriggerFds TriggerFacts TriggerTab TriggerRun TriggerEx KqMon KqMonFacts KqCreate KqGone Prop_Trigger Prop_TriggerFds.
Local Open Scope N_scope.

(** ** Nothing is lost *)
(** Something happens to the file or directory watched as [q].  Whatever calls and events
    come between, if they leave the descriptor of [q] open ([spares]), the note is there, or
    the monitor has it, and the descriptor is still that of [q]; or it has been processed,
    as one of [q]. *)
Theorem C92_followed_partial l1 s1 fd ge q l2 s : krun l1 s1 → kruns s1 (KNote fd ge q :: l2) s → (∀ l, l ∈ l2 → spares l q) →
  (owner (k_t s) fd = Some q ∧ ∃ g, incl_ev ge g ∧ (k_pend s !! fd = Some g ∨ k_mon s = Some (fd, g))) ∨
  ∃ u st A ord g evn v, l2 = u ++ KProc (Some q) (TEvent st A ord (inl fd) g evn) :: v ∧ incl_ev ge g.
Proof.
  intros H1 H Hsp. pose proof (kruns_krun _ _ _ _ H1 H) as Hr. pose proof (krun_inv _ _ H1) as Hi1.
  assert (owner (k_t s1) fd = Some q) as Ho by (inversion H as [|? ? s2 ? ? Hs H2]; subst; by inversion Hs; subst).
  destruct (owner_at _ _ _ Hi1 Ho) as (w&Hw&_). 
  destruct (note_followed (tw_e w) (tw_dir w) l1 fd ge q l2 s1 w s H1 Hw ltac:(by intros j Hj) eq_refl H Hsp) as [(i&Hh&Hg)|(u&st&A&ord&g&evn&v&_&_&_&->&Hg&_)].
  - left. split; [|done]. eapply holds_id; [by eapply krun_inv|exact Hh].
  - right. by exists u, st, A, ord, g, evn, v.
Qed.
(** When nothing is left to do every event [x] requested for the file [q] that the OS
    reported has been reported, under its name. *)
Theorem C92_reported_partial l1 s1 w fd ge q l2 s x : krun l1 s1 → tw_at (k_t s1) q = Some w → tw_dir w = false →
  kruns s1 (KNote fd ge q :: l2) s → (∀ l, l ∈ l2 → spares l q) → k_pend s = ∅ → k_mon s = None →
  reported kq ge x → x ≠ 0 → incl_ev x (tw_e w) →
  ∃ u st A ord g e v, l2 = u ++ KProc (Some q) (TEvent st A ord (inl fd) g [TE q e false]) :: v ∧ incl_ev x e.
Proof.
  intros H1 Hw Hd H Hsp Hp Hm Hx Hx0 Hxw.
  destruct (note_followed (tw_e w) false l1 fd ge q l2 s1 w s H1 Hw ltac:(by intros j Hj) Hd H Hsp)
    as [(i&Hh&g&_&Hg)|(u&st&A&ord&g&evn&v&s0&i&t'&->&Hg&H0&Hh&_&Hs)].
  { exfalso. rewrite Hp, Hm in Hg. destruct Hg as [Hg|Hg]; [rewrite lookup_empty in Hg; done|done]. }
  destruct (process_file _ _ _ _ _ _ _ _ _ _ _ (krun_inv _ _ H0) Hh Hs) as (w'&_&_&Hew&->).
  assert (incl_ev x (decode kq_nat2not g (tw_e w'))) as Hin.
  { intros j Hj. apply (decode_spec kq); [by left|]. exists x. split_and!; [|intros Hz; eapply (has_0 j); rewrite <-Hz; apply has_land; split; [by apply Hew, Hxw|done]|done].
    assert (∀ f, ge .& f ≠ 0 → g .& f ≠ 0) as Hmono.
    { clear - Hg. intros f Hf Hz. apply Hf. apply has_ext. intros k. rewrite has_land. split; [|intros Hk; by apply has_0 in Hk].
      intros [H1 H2]. rewrite <-Hz. apply has_land. split; [by apply Hg|done]. }
    destruct Hx as [[? ?]|(f&?&?)]; [left; split; [done|by apply Hmono]|right; exists f; split; [done|by apply Hmono]]. }
  rewrite decide_False.
  2:{ intros Hz. apply Hx0. apply has_ext. intros k. split; [|intros Hk; by apply has_0 in Hk]. intros Hk. rewrite <-Hz. by apply Hin. }
  by exists u, st, A, ord, g, (decode kq_nat2not g (tw_e w')), v.
Qed.
(** A file or directory [y] appears in the directory [p], directly watched for Create; the OS
    reports the directory written to.  It is not in the table when the note is made, what
    comes leaves the descriptor of [p] open, and nobody but the processing of the notes for
    [p] opens one for [y], which finds it there.  When nothing is left to do a Create has been
    made for it.  (C93_created_refuted: what happens if somebody else opens one.) *)
Theorem C92_created_partial l1 s1 w fd ge tp y l2 s : let p := topath tp in let q := join p y in
  Forall proper tp → krun l1 s1 → tw_at (k_t s1) p = Some w → tw_dir w = true → tw_eDir w .& Create kqueue ≠ 0 → tw_at (k_t s1) q = None →
  kruns s1 (KNote fd ge p :: l2) s → ge .& t_write kq ≠ 0 → (∀ l, l ∈ l2 → spares l p) → k_pend s = ∅ → k_mon s = None →
  (∀ l, l ∈ l2 → (∃ A, scans l p A ∧ finds A p y) ∨ (∀ A, ¬ scans l p A) ∧ leaves_out l q) →
  ∃ u st A ord k g evn v isd, l2 = u ++ KProc (Some p) (TEvent st A ord k g evn) :: v ∧ TE q (Create kqueue) isd ∈ evn.
Proof.
  intros p q Hp H1 Hw Hd Hc Hq H Hwr Hsp Hpe Hmo Hl.
  destruct (C92_followed_partial l1 s1 fd ge p l2 s H1 H Hsp) as [(_&g&_&Hg)|(u&st&A&ord&g&evn&v&E&Hg)].
  { exfalso. rewrite Hpe, Hmo in Hg. destruct Hg as [Hg|Hg]; [rewrite lookup_empty in Hg; done|done]. }
  assert (∃ x, x ∈ l2 ∧ ∃ A, scans x p A) as (x&Hx&A0&Hx0).
  { exists (KProc (Some p) (TEvent st A ord (inl fd) g evn)). split; [rewrite E; apply elem_of_app; right; by left|].
    exists A, st, ord, (inl fd), g, evn. split; [done|]. intros Hz. apply Hwr. apply has_ext. intros j. rewrite has_land. split; [|intros Hj; by apply has_0 in Hj].
    intros [Ha Hb]. rewrite <-Hz. apply has_land. split; [by apply Hg|done]. }
  clear u st A ord g evn v E Hg. destruct (first_of _ _ _ x Hl Hx) as (u&l&v&->&(A&Hs&Hf)&Hu); [intros [Hn _]; by apply (Hn A0)|]. clear x Hx A0 Hx0.
  destruct Hs as (st&ord&k&g&evn&->&Hg). rewrite app_comm_cons in H. apply kruns_split in H as (s0&H0&H).
  inversion H as [|? ? s2 ? ? Hs _]; subst. pose proof (kruns_krun _ _ _ _ H1 H0) as Hr. pose proof (krun_inv _ _ Hr) as Hi.
  destruct (kruns_direct _ _ _ _ p w H1 H0) as (w'&Hw'&He&Hd'&_); [|done|].
  { intros z [->|Hz]%elem_of_cons; [done|]. apply Hsp, elem_of_app. by left. }
  rewrite Hd in Hd'.
  assert (ts_path (k_t s0) !! q = None) as Hq0.
  { eapply kruns_out; [exact H1|exact H0| |by apply (tw_at_None kq); [by eapply krun_inv|]]. intros z [->|Hz]%elem_of_cons; [done|]. by apply Hu. }
  apply (tw_at_None kq _ _ Hi) in Hq0.
  destruct (Hsp _ ltac:(apply elem_of_app; right; by left)) as [Hgo _]. destruct (Hgo eq_refl) as [Hgo' _]. clear Hgo.
  inversion Hs as [| | |t pend fd' ge' st' A' ord' evn' t' pend' l0 Hlo Ht Hn Hs1 Ho]; subst. cbn [k_t] in *.
  destruct (owner_at _ _ _ Hi Ho) as (w2&Hw2&Hf2&_). rewrite Hw' in Hw2. injection Hw2 as <-.
  destruct Hf as (HA&ls&isd&Hls&Hpr&Hnd&Hy).
  assert (inl fd' = ident_of kq w') as Hid by (unfold ident_of; cbn; by rewrite Hf2). unfold l0 in Ht. rewrite Hid in Ht.
  destruct (C51_created_partial kq _ _ st A ord p w' g ls tp t' evn (krun_texec _ _ Hr) HA eq_refl Hp Hw' Hd' Hgo' Hg Hls Hpr Hnd Ht) as [Hev _].
  exists u, st, A, ord, (inl fd'), g, evn, v, isd. split; [done|]. rewrite Hev, decide_False.
  - apply elem_of_list_fmap. exists (FI y isd). split; [done|]. unfold new_entries. apply elem_of_list_filter. by split.
  - intros Hz. apply Hc. apply has_ext. intros j. rewrite has_land. split; [|intros Hj; by apply has_0 in Hj].
    intros [Ha Hb]. rewrite <-Hz. apply has_land. split; [by apply He|done].
Qed.
Lemma reported_decoded ge g e x : reported kq ge x → incl_ev ge g → incl_ev x e → incl_ev x (decode kq_nat2not g e).
Proof.
  intros Hx Hg He j Hj. apply (decode_spec kq); [by left|]. exists x. split_and!; [|intros Hz; eapply (has_0 j); rewrite <-Hz; apply has_land; split; [by apply He|done]|done].
  assert (∀ f, ge .& f ≠ 0 → g .& f ≠ 0) as Hmono.
  { clear - Hg. intros f Hf Hz. apply Hf. apply has_ext. intros k. rewrite has_land. split; [|intros Hk; by apply has_0 in Hk].
    intros [H1 H2]. rewrite <-Hz. apply has_land. split; [by apply Hg|done]. }
  destruct Hx as [[? ?]|(f&?&?)]; [left; split; [done|by apply Hmono]|right; exists f; split; [done|by apply Hmono]].
Qed.
(** The removal or renaming of a watched file or directory is reported too, before the path is
    given up for it, if it is the first that waits: what comes leaves the descriptor open or
    is itself the processing of a removal or renaming of [q].  What is reported for a
    directory has no Write. *)
Theorem C92_gone_partial l1 s1 w fd ge q l2 s x : krun l1 s1 → tw_at (k_t s1) q = Some w → none_gone s1 fd →
  kruns s1 (KNote fd ge q :: l2) s → (∀ l, l ∈ l2 → spares l q ∨ gives_up l q) → k_pend s = ∅ → k_mon s = None →
  ge .& native_gone kq ≠ 0 → reported kq ge x → x ≠ 0 → incl_ev x (tw_e w) → (tw_dir w = true → disj_ev x (Write kqueue .| t_write kq)) →
  ∃ u st A ord g evn v ev, l2 = u ++ KProc (Some q) (TEvent st A ord (inl fd) g evn) :: v ∧ TE q ev (tw_dir w) ∈ evn ∧ incl_ev x ev.
Proof.
  intros H1 Hw Hno H Hsp Hp Hm Hgo Hx Hx0 Hxw Hwr.
  destruct (note_first (tw_e w) (tw_dir w) l1 fd ge q l2 s1 w s H1 Hw ltac:(by intros j Hj) eq_refl Hno H Hsp)
    as [(i&Hh&Hg)|(u&st&A&ord&g&evn&v&s0&i&t'&->&Hg&H0&Hh&Hs)].
  { exfalso. rewrite Hp, Hm in Hg. destruct Hg as [(?&?&_)|[(?&Hg&_) _]]; [done|by rewrite lookup_empty in Hg]. }
  assert (g .& native_gone kq ≠ 0) as Hgo'.
  { intros Hz. apply Hgo. apply has_ext. intros k. rewrite has_land. split; [|intros Hk; by apply has_0 in Hk].
    intros [Ha Hb]. rewrite <-Hz. apply has_land. split; [by apply Hg|done]. }
  apply krun_inv in H0 as Hi. destruct (tw_dir w) eqn:Hd.
  - destruct (process_dir_gone _ _ _ _ _ _ _ _ _ _ _ Hi Hh Hgo' Hs) as (w'&_&Hew&Hin).
    pose proof (reported_decoded ge g (tw_e w') x Hx Hg ltac:(intros j Hj; by apply Hew, Hxw)) as Hdec.
    eexists u, st, A, ord, g, evn, v, _. split; [done|]. split.
    + apply Hin. intros Hz. apply Hx0. apply has_ext. intros k. split; [|intros Hk; by apply has_0 in Hk]. intros Hk. rewrite <-Hz. by apply Hdec.
    + specialize (Hwr eq_refl). intros j Hj. specialize (Hdec j Hj). specialize (Hwr j Hj). rewrite has_lor in Hwr. rewrite !has_ldiff. tauto.
  - destruct (process_file _ _ _ _ _ _ _ _ _ _ _ Hi Hh Hs) as (w'&_&_&Hew&->).
    pose proof (reported_decoded ge g (tw_e w') x Hx Hg ltac:(intros j Hj; by apply Hew, Hxw)) as Hdec.
    rewrite decide_False.
    2:{ intros Hz. apply Hx0. apply has_ext. intros k. split; [|intros Hk; by apply has_0 in Hk]. intros Hk. rewrite <-Hz. by apply Hdec. }
    eexists u, st, A, ord, g, _, v, _. split; [done|]. split; [by apply elem_of_list_singleton|done].
Qed.
(** Watch takes nothing away from anybody, *)
Theorem C92_watch ls s st A p e r s' fd q : krun ls s → kstep s (KCall (TWatch st A p e r)) s' → owner (k_t s) fd = Some q →
  owner (k_t s') fd = Some q ∧ k_pend s' !! fd = k_pend s !! fd.
Proof.
  intros H Hs Ho. pose proof (krun_inv _ _ H) as Hi. assert (tinv (k_t s')) as Hi' by (eapply krun_inv; by econstructor). split.
  - by eapply (kstep_owner s (KCall (TWatch st A p e r)) s' q fd Hi Hi').
  - inversion Hs as [t pend mon l t' pend' Hc Hl Ht Hn| | |]; subst. cbn in *. by apply (Hn fd) with q.
Qed.
(** nor does Unwatch from what is neither its path nor listed in it. *)
Theorem C92_unwatch ls s st A p r s' fd q : krun ls s → kstep s (KCall (TUnwatch st A p r)) s' → owner (k_t s) fd = Some q →
  q ≠ p → (∀ ls, a_ls A p = Some ls → q ∉ entries p ls) → owner (k_t s') fd = Some q ∧ k_pend s' !! fd = k_pend s !! fd.
Proof.
  intros H Hs Ho Hp Hq. pose proof (krun_inv _ _ H) as Hi. assert (tinv (k_t s')) as Hi' by (eapply krun_inv; by econstructor).
  assert (spares (KCall (TUnwatch st A p r)) q) as Hsp.
  { split; [done|]. intros l fi Hl Hin ->. eapply (Hq l Hl). unfold entries. apply elem_of_list_fmap. by exists fi. }
  split.
  - by eapply (kstep_owner s (KCall (TUnwatch st A p r)) s' q fd Hi Hi').
  - inversion Hs as [t pend mon l t' pend' Hc Hl Ht Hn| | |]; subst. cbn [k_pend k_t] in *. by apply (Hn fd) with q.
Qed.

(** ** Nothing is made up *)
(** Every bit of what is processed happened to a file whose descriptor it was: to the one
    it is reported for, unless what came in between closed that descriptor. *)
Theorem C92_own_partial u p st A ord fd g evn v s i : krun (u ++ KProc (Some p) (TEvent st A ord (inl fd) g evn) :: v) s → has g i →
  ∃ u1 ge q u2, u = u1 ++ KNote fd ge q :: u2 ∧ has ge i ∧ (q = p ∨ ∃ l, l ∈ u2 ∧ ¬ spares l q).
Proof.
  intros H Hi. apply krun_elem in H as (s0&s1&H0&Hs).
  inversion Hs as [| | |t pend fd' ge' st' A' ord' evn' t' pend' l Hl Ht Hn E1 E2 E3]; subst.
  destruct (krun_came _ _ fd g i H0 ltac:(by right) Hi) as (u1&ge&q&u2&->&Hge&Hq). exists u1, ge, q, u2. split_and!; [done|done|].
  destruct Hq as [Hq|?]; [left|by right]. cbn [k_t] in Hq. congruence.
Qed.
(** No more is processed than was reported: nothing twice. *)
Theorem C92_once ls s : krun ls s → (length (filter (λ l, is_proc l = true) ls) ≤ length (filter (λ l, is_note l = true) ls))%nat.
Proof. intros H%krun_count. lia. Qed.
(** What is sent is about the file or directory whose descriptor it is, something listed in
    it, or something known below it, and requested for it. *)
Theorem C92_names u p st A ord fd g evn v s ev : krun (u ++ KProc p (TEvent st A ord (inl fd) g evn) :: v) s → ev ∈ evn →
  ∃ s0 w, krun u s0 ∧ p = Some (tw_p w) ∧ tw_at (k_t s0) (tw_p w) = Some w ∧ incl_ev (te_e ev) (tw_e w) ∧ about (k_t s0) A w ev.
Proof.
  intros H Hev. apply krun_elem in H as (s0&s1&H0&Hs). exists s0. pose proof (krun_inv _ _ H0) as Hi.
  inversion Hs as [| | |t pend fd' ge' st' A' ord' evn' t' pend' l Hl Ht Hn E1 E2 E3]; subst. cbn [k_t] in *.
  destruct (C62_only_requested kq _ _ _ _ _ _ _ _ _ ltac:(by left) (krun_texec _ _ H0) Ht ev Hev) as (w&[Hw Hk]&He&Ha). cbn [k_t] in *.
  exists w. split_and!; try done. unfold ident_of in Hk. cbn in Hk. injection Hk as <-.
  pose proof Hw as Hw'. unfold tw_at in Hw. destruct (ts_path t !! tw_p w) as [i|] eqn:E; [|done]. cbn in Hw.
  apply (holds_id (tw_e w) (tw_dir w) t (tw_p w) i); [done|]. split; [done|]. exists w. split_and!; [done|done|by intros j Hj|done].
Qed.
(** A note on a descriptor closed meanwhile is dropped. *)
Theorem C92_unknown s st A ord fd g evn s' : kstep s (KProc None (TEvent st A ord (inl fd) g evn)) s' → evn = [] ∧ k_t s' = k_t s.
Proof.
  intros Hs. inversion Hs as [| | |t pend fd' ge' st' A' ord' evn' t' pend' l Hl Ht Hn E1 E2 E3]; subst. cbn [k_t].
  inversion Ht as [| | |? ? ? ? ? ? ? Ho H]; subst. unfold trg_process in H. cbn [t_fds kq] in H.
  assert (owner t fd = None) as Ho' by congruence. unfold owner in Ho'. unfold t_Watched in H. cbn [t_fds kq] in H.
  destruct (ts_id t !! fd) as [i|]; [|apply pair_equal_spec in H as [<- <-]; done]. cbn in Ho'.
  destruct (ts_heap t !! i); [done|]. apply pair_equal_spec in H as [<- <-]. done.
Qed.

(** ** What fails *)
Definition pa : str := b "/a". Definition pb : str := b "/b".
Definition K : answers := kind (λ _, None).
Definition cw (p : str) : cmd := XWatch (Some false) K p (Write kqueue).
Definition cu (p : str) : cmd := XUnwatch (Some false) K p.
Definition after (cs : list cmd) : tstate := (run kq cs).2.
Definition lab (cs : list cmd) (c : cmd) : tlabel := (run1 kq (after cs) c).1.
Lemma after_snoc cs c : after (cs ++ [c]) = (run1 kq (after cs) c).2.
Proof. unfold after, run. by rewrite foldl_app. Qed.
Lemma lab_step cs c : tstep kq (after cs) (lab cs c) (after (cs ++ [c])).
Proof. rewrite after_snoc. apply run1_step. Qed.
Lemma notes_none l s s' pend : (∀ fd, pend !! fd = None) → notes_after l s s' pend pend.
Proof. intros H fd. split_and!; [by left|by rewrite H|done]. Qed.
Lemma krun_call ls cs pend mon c pend' : krun ls (KS (after cs) pend mon) → is_call (lab cs c) → label_ok (lab cs c) →
  notes_after (KCall (lab cs c)) (after cs) (after (cs ++ [c])) pend pend' → krun (ls ++ [KCall (lab cs c)]) (KS (after (cs ++ [c])) pend' mon).
Proof. intros H ? ? ?. econstructor; [exact H|]. constructor; [done|done|apply lab_step|done]. Qed.
Lemma krun_proc ls cs pend fd ge st : krun ls (KS (after cs) pend (Some (fd, ge))) → (∀ fd, pend !! fd = None) →
  krun (ls ++ [KProc (owner (after cs) fd) (lab cs (XEvent st K (inl fd) ge))]) (KS (after (cs ++ [XEvent st K (inl fd) ge])) pend None).
Proof.
  intros H Hp. econstructor; [exact H|]. pose proof (lab_step cs (XEvent st K (inl fd) ge)) as Hs. unfold lab in *. cbn [run1 run_event fst] in *.
  constructor; [exact next_fd_fresh|exact Hs|by apply notes_none].
Qed.
Definition nil_returned (l : klab) : Prop := match l with KCall l => returned l = Some ROk | _ => True end.
(** The monitor takes a note for /a; before it has the lock /a is unwatched and /b watched,
    with the same descriptor: a write to /b is reported, though nothing happened to it. *)
Theorem C92_reused_refuted : ∃ ls s, krun ls s ∧ Forall nil_returned ls ∧ (∀ fd ge, KNote fd ge pb ∉ ls) ∧
  ∃ st A ord fd g, KProc (Some pb) (TEvent st A ord fd g [TE pb (Write kqueue) false]) ∈ ls.
Proof.
  pose (x := XEvent (Some false) K (inl 1%nat) NoteWrite). pose (cs := [cw pa; cu pa; cw pb]).
  pose (pd1 := delete 1%nat (<[1%nat := default 0 ((∅ : gmap nat N) !! 1%nat) .| NoteWrite]> (∅ : gmap nat N))).
  assert (∀ fd, pd1 !! fd = None) as Hn.
  { intros fd. unfold pd1. destruct (decide (1%nat = fd)) as [<-|?]; [apply lookup_delete|]. rewrite lookup_delete_ne, lookup_insert_ne by done. apply lookup_empty. }
  exists ([KCall (lab [] (cw pa)); KNote 1 NoteWrite pa; KTake 1 NoteWrite; KCall (lab [cw pa] (cu pa)); KCall (lab [cw pa; cu pa] (cw pb));
    KProc (owner (after cs) 1) (lab cs x)]), (KS (after (cs ++ [x])) pd1 None).
  split_and!.
  - apply (krun_proc [_; _; _; _; _] cs pd1 1 NoteWrite (Some false)); [|done].
    apply (krun_call [_; _; _; _] [cw pa; cu pa] pd1 (Some (1%nat, NoteWrite)) (cw pb) pd1); [|done|exact next_fd_fresh|by apply notes_none].
    apply (krun_call [_; _; _] [cw pa] pd1 (Some (1%nat, NoteWrite)) (cu pa) pd1); [|done|exact next_fd_fresh|by apply notes_none].
    eapply (krun_step [_; _] _ (KTake 1 NoteWrite)); [|apply k_take; by rewrite lookup_insert].
    eapply (krun_step [_]); [|apply (k_note _ _ _ 1 NoteWrite pa NoteWrite); [by vm_compute|by vm_compute|done|by intros j Hj]].
    apply (krun_call [] [] ∅ None (cw pa) ∅); [apply krun_init|done|exact next_fd_fresh|apply notes_none; intros fd; apply lookup_empty].
  - repeat (apply Forall_cons_2; [first [exact I|by vm_compute]|]). by apply Forall_nil_2.
  - intros fd ge Hin. repeat (apply elem_of_cons in Hin as [Hin|Hin]; [done|]). by apply elem_of_nil in Hin.
  - exists (Some false), K, (keys_of (after cs)), (inl 1%nat), NoteWrite. do 5 (apply elem_of_list_further). apply elem_of_list_singleton.
    assert (owner (after cs) 1 = Some pb) as -> by (by vm_compute).
    change (lab cs x) with (TEvent (Some false) K (keys_of (after cs)) (inl 1%nat) NoteWrite (sent (lab cs x))). assert (sent (lab cs x) = [TE pb (Write kqueue) false]) as -> by (by vm_compute). done.
Qed.
(** A write to /a is waiting when another channel's Watch widens the request: the descriptor
    is closed and opened again, and the note is gone.  Write is requested for /a before and
    after, nothing is left to do, and nothing was ever reported. *)
Theorem C92_rewatch_refuted : ∃ ls s1 w1 l2 s w2, krun ls s1 ∧ tw_at (k_t s1) pa = Some w1 ∧ tw_dir w1 = false ∧ tw_e w1 = Write kqueue ∧
  kruns s1 (KNote 1 NoteWrite pa :: l2) s ∧ Forall nil_returned (ls ++ l2) ∧ k_pend s = ∅ ∧ k_mon s = None ∧
  (∃ st A A', l2 = [KCall (TRewatch st A A' pa (Write kqueue .| NoteAttrib) ROk)]) ∧
  tw_at (k_t s) pa = Some w2 ∧ tw_e w2 = Write kqueue .| NoteAttrib.
Proof.
  pose (c := XRewatch (Some false) K K pa (Write kqueue .| NoteAttrib)).
  exists [KCall (lab [] (cw pa))], (KS (after [cw pa]) ∅ None), (TW pa false (Write kqueue) 0 1), [KCall (lab [cw pa] c)], (KS (after [cw pa; c]) ∅ None), (TW pa false (Write kqueue .| NoteAttrib) 0 1).
  split_and!; try done.
  - apply (krun_call [] [] ∅ None (cw pa) ∅); [apply krun_init|done|exact next_fd_fresh|apply notes_none; intros fd; apply lookup_empty].
  - econstructor; [apply (k_note _ _ _ 1 NoteWrite pa NoteWrite); [by vm_compute|by vm_compute|done|by intros j Hj]|].
    econstructor; [|constructor]. constructor; [done|split; exact next_fd_fresh|apply (lab_step [cw pa] c)|].
    intros fd. rewrite lookup_empty. split_and!; [by right|done|]. intros q Ho Hsp. destruct (decide (fd = 1%nat)) as [->|Hne].
    + assert (owner (after [cw pa]) 1 = Some pa) as E by (by vm_compute). rewrite E in Ho. injection Ho as <-. by destruct Hsp as [Hsp _].
    + by rewrite lookup_insert_ne, lookup_empty by done.
  - repeat (apply Forall_cons_2; [first [exact I|by vm_compute]|]). by apply Forall_nil_2.
  - exists (Some false), K, K. by vm_compute.
Qed.
(** ** The hypotheses of C92_reported_partial are met: /b is watched and unwatched meanwhile. *)
Example C92_ex : ∃ l1 s1 w l2 s, krun l1 s1 ∧ tw_at (k_t s1) pa = Some w ∧ tw_dir w = false ∧ kruns s1 (KNote 1 NoteWrite pa :: l2) s ∧
  (∀ l, l ∈ l2 → spares l pa) ∧ k_pend s = ∅ ∧ k_mon s = None ∧ reported kq NoteWrite (Write kqueue) ∧ incl_ev (Write kqueue) (tw_e w) ∧ length l2 = 4%nat.
Proof.
  pose (x := XEvent (Some false) K (inl 1%nat) NoteWrite). pose (cs := [cw pa; cw pb; cu pb]).
  pose (pd0 := <[1%nat := default 0 ((∅ : gmap nat N) !! 1%nat) .| NoteWrite]> (∅ : gmap nat N)).
  exists [KCall (lab [] (cw pa))], (KS (after [cw pa]) ∅ None), (TW pa false (Write kqueue) 0 1),
    [KCall (lab [cw pa] (cw pb)); KTake 1 NoteWrite; KCall (lab [cw pa; cw pb] (cu pb)); KProc (owner (after cs) 1) (lab cs x)], (KS (after (cs ++ [x])) (delete 1%nat pd0) None).
  assert (delete 1%nat pd0 = ∅) as Hd by (apply (delete_insert (∅ : gmap nat N) 1%nat); apply lookup_empty).
  assert (∀ fd, (delete 1%nat pd0) !! fd = None) as Hn by (intros fd; rewrite Hd; apply lookup_empty).
  split_and!; try done.
  - apply (krun_call [] [] ∅ None (cw pa) ∅); [apply krun_init|done|exact next_fd_fresh|apply notes_none; intros fd; apply lookup_empty].
  - econstructor; [apply (k_note _ _ _ 1 NoteWrite pa NoteWrite); [by vm_compute|by vm_compute|done|by intros j Hj]|].
    econstructor; [apply (k_call _ _ _ _ (after [cw pa; cw pb]) pd0); [done|exact next_fd_fresh|apply (lab_step [cw pa] (cw pb))|]|].
    { intros fd. split_and!; [by left| |done]. intros Hne. destruct (decide (fd = 1%nat)) as [->|?]; [exfalso; apply Hne; by vm_compute|].
      unfold pd0. rewrite lookup_insert_ne by done. apply lookup_empty. }
    econstructor; [apply k_take; unfold pd0; by rewrite lookup_insert|].
    econstructor; [apply (k_call _ _ _ _ (after cs) (delete 1%nat pd0)); [done|exact next_fd_fresh|apply (lab_step [cw pa; cw pb] (cu pb))|by apply notes_none]|].
    econstructor; [|constructor]. pose proof (lab_step cs x) as Hs. unfold x, lab in *. cbn [run1 run_event fst] in *.
    constructor; [exact next_fd_fresh|exact Hs|by apply notes_none].
  - assert (owner (after cs) 1 = Some pa) as -> by (by vm_compute). intros l Hl.
    repeat (apply elem_of_cons in Hl as [->|Hl]); [done|done| | |by apply elem_of_nil in Hl].
    + split; [by intros ?|]. intros ls fi Hls. by vm_compute in Hls.
    + split; [intros _; split; [by vm_compute|by right]|]. intros Hz. by vm_compute in Hz.
  - right. exists NoteWrite. split; [left|by vm_compute].
  - by intros j Hj.
Qed.
Print Assumptions C92_followed_partial.
Print Assumptions C92_reported_partial.
Print Assumptions C92_created_partial.
Print Assumptions C92_gone_partial.
Print Assumptions C92_watch.
Print Assumptions C92_unwatch.
Print Assumptions C92_own_partial.
Print Assumptions C92_once.
Print Assumptions C92_names.
Print Assumptions C92_unknown.
Print Assumptions C92_reused_refuted.
Print Assumptions C92_rewatch_refuted.
