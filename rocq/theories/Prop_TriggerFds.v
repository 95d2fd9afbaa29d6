(** * The kqueue and FEN watchers: C59 to C64 *)
From Verif Require Import Base Event Watchpoint Paths Clean SpecClean CleanFacts Trigger SpecTrigger SpecTriggerFds TriggerFacts TriggerTab TriggerRun TriggerRoles TriggerScan TriggerFds TriggerSent TriggerEx Prop_Trigger.
Local Open Scope N_scope.

(** ** C59: only open descriptors are closed *)
(** In every history, whatever the OS answers: no call closes a descriptor that is not open
    ([ts_stray] lists those that were), and an event does so iff it says that a directory in
    the table is gone and it is noticed; then it is the descriptor of that directory, once. *)
Theorem C59_stray_partial tr s l s' : texec kq tr s → label_ok l → tstep kq s l s' →
  match l with
  | TEvent _ _ _ k ge _ => ts_stray s' = ts_stray s ∧ ¬ (∃ w, dir_gone kq s k ge w) ∨ ∃ w, dir_gone kq s k ge w ∧ ts_stray s' = tw_fd w :: ts_stray s
  | _ => ts_stray s' = ts_stray s
  end.
Proof. intros H Hl Hs. apply texec_inv in H as Hi. by apply (step_fds kq eq_refl s l s' Hi Hl Hs). Qed.
(** The directory /d is watched for Remove, and is removed: its descriptor is closed twice. *)
Definition rmdir_cmds : list cmd := [XWatch (Some true) (kind (only pd [])) pd (Remove kqueue); XEventAt None (kind (only pd [])) pd NoteDelete].
Theorem C59_double_close_refuted : ∃ tr s, texec kq tr s ∧ (sent <$> tr) = [[]; [TE pd (Remove kqueue) true]] ∧ ts_stray s = [1%nat] ∧ ts_open s = ∅.
Proof.
  exists (run kq rmdir_cmds).1, (run kq rmdir_cmds).2. split; [apply run_texec; fresh_fds|]. split_and!; [by vm_compute|by vm_compute|apply (bool_decide_unpack _); by vm_compute].
Qed.
Example C59_hyps : ∃ w, dir_gone kq (run kq (take 1 rmdir_cmds)).2 (inl 1%nat) NoteDelete w.
Proof. exists (TW pd true (Remove kqueue) 0 1). split_and!; [split; by vm_compute|done|by vm_compute|left; by vm_compute]. Qed.

(** ** C60: no descriptor is left open *)
(** If the OS never refuses to register an open descriptor, the open descriptors are in every
    history exactly those of the files and directories in the table. *)
Theorem C60_no_leak_partial tr s : texec kq tr s → Forall registers_l tr →
  ∀ fd, fd ∈ ts_open s ↔ ∃ p w, tw_at s p = Some w ∧ tw_fd w = fd.
Proof.
  intros H HF. assert (no_leak s) as Hl.
  { induction H as [|tr s l s' H IH Hl Hs]; [by intros fd ?%elem_of_empty|]. apply Forall_app in HF as [HF Hr]. apply Forall_cons_1 in Hr as [Hr _].
    apply texec_inv in H as Hi. destruct (step_fds kq eq_refl s l s' Hi Hl Hs) as [_ K]. apply K; [exact Hr|exact (IH HF)]. }
  apply texec_inv in H as Hi. intros fd. split.
  - intros Hfd. destruct (Hl fd Hfd) as [i Hi']. destruct (ti_id _ _ Hi _ _ Hi') as (_&w&Hw&Hf&Hp). exists (tw_p w), w. split; [by eapply tw_at_eq|done].
  - intros (p&w&(i&Hp&Hw)%tw_at_Some&<-). destruct (ti_path _ _ Hi p i Hp) as (x&Hx&_&K). rewrite Hw in Hx. injection Hx as <-. by apply K.
Qed.
(** So after everything is unwatched none is open. *)
Theorem C60_all_closed_partial tr s : texec kq tr s → Forall registers_l tr → (∀ p, tw_at s p = None) → ts_open s = ∅.
Proof.
  intros H HF Hn. apply set_eq. intros fd. rewrite (C60_no_leak_partial tr s H HF fd). split; [|by intros ?%elem_of_empty].
  intros (p&w&Hw&_). by rewrite Hn in Hw.
Qed.
Example C60_hyps : texec kq (run kq (scan_cmds kq)).1 (run kq (scan_cmds kq)).2 ∧ Forall registers_l (run kq (scan_cmds kq)).1 ∧
  size (ts_open (run kq (scan_cmds kq)).2) = 4%nat.
Proof. split; [apply run_texec; fresh_fds|]. split; [|by vm_compute]. repeat (apply Forall_cons_2; [by intros ?|]). by apply Forall_nil_2. Qed.
(** If it does, the descriptor stays open although Watch fails and nothing is watched: the
    number of descriptors lost grows without limit. *)
Definition refusing : answers := Ans next_fd (λ _, NewOk) (λ _, SErr) (λ _, SOk) (λ _, None).
Theorem C60_leak_refuted n : ∃ tr s, texec kq tr s ∧ (returned <$> tr) = replicate n (Some RErr) ∧ (∀ p, tw_at s p = None) ∧ size (ts_open s) = n.
Proof.
  assert (∃ tr s, texec kq tr s ∧ (returned <$> tr) = replicate n (Some RErr) ∧ ts_path s = ∅ ∧ size (ts_open s) = n) as (tr&s&H1&H2&H3&H4).
  2:{ exists tr, s. split_and!; [done|done| |done]. intros p. unfold tw_at. by rewrite H3, lookup_empty. }
  induction n as [|n (tr&s&H1&H2&H3&H4)]; [exists [], ts_init; split_and!; try done; constructor|].
  exists (tr ++ [TWatch (Some false) refusing px (Write kqueue) RErr]), (alloc kq s refusing (add_role MDir (Write kqueue) (new_tw kq s refusing px false))).
  assert (ts_path s !! px = None) as Hp by (rewrite H3; apply lookup_empty).
  split_and!.
  - eapply texec_step; [exact H1|exact next_fd_fresh|]. constructor. cbn [trg_Watch]. unfold trg_watch. by rewrite (singlewatch_new kq s refusing px _ MDir false Hp).
  - rewrite fmap_app, H2. cbn [fmap list_fmap returned]. by rewrite <-replicate_S_end.
  - done.
  - unfold alloc. cbn [t_fds kq ts_open]. rewrite size_union; [rewrite size_singleton, H4; done|].
    apply disjoint_singleton_l. exact (next_fd_fresh (ts_open s)).
Qed.

(** ** C61: a file that comes back is reported again *)
(** If the removal of the file is noticed (removals are requested in some way), the next rescan
    that finds it reports Create. *)
Theorem C61_recreated_partial T tr s st st' A A' ord ord' d w q x fi ge ge' ls tp s1 evn1 s2 evn2 : known_trig T →
  texec T tr s → d = topath tp → Forall proper tp → q = join d (fi_name fi) →
  tw_at s d = Some w → tw_dir w = true → tw_eDir w .& Create (t_plat T) ≠ 0 →
  tw_at s q = Some x → tw_dir x = false → ge .& (t_rename T .| t_remove T) ≠ 0 → decode (t_nat2not T) ge (tw_e x) ≠ 0 →
  fresh_fd A → tstep T s (TEvent st A ord (ident_of T x) ge evn1) s1 →
  ge' .& (t_rename T .| t_remove T) = 0 → ge' .& t_write T ≠ 0 → willing A' →
  a_ls A' d = Some ls → Forall (λ fi, proper (fi_name fi)) ls → NoDup (fi_name <$> ls) → fi ∈ (ls : list finfo) →
  tstep T s1 (TEvent st' A' ord' (ident_of T w) ge' evn2) s2 →
  TE q (Create (t_plat T)) (fi_dir fi) ∈ evn2.
Proof.
  intros HT Hx Hd Htp Hq Hw Hwd Hc Hxq Hxd Hge Hdec HA Hs1 Hge' Hwr HA' Hls Hpr Hnd Hfi Hs2.
  pose proof (texec_step T tr s (TEvent st A ord (ident_of T x) ge evn1) s1 Hx HA Hs1) as Hx1.
  apply texec_inv in Hx as Hi. inversion Hs1 as [| | |? ? ? ? ? ? ? _ H]; subst st A ord ge evn1 s1 k.
  assert (tw_p x = q) as Hp. { apply tw_at_Some in Hxq as (i&Hp&Hh). destruct (ti_path _ _ Hi _ _ Hp) as (y&Hy&?&_). congruence. }
  rewrite <-Hp in Hxq. destruct (file_gone T _ _ _ _ _ _ _ _ Hi Hxq Hxd Hge (or_introl Hdec) H) as [G1 G2].
  assert (tw_p x ≠ d) as Hne. { intros E. rewrite E in Hxq. congruence. }
  assert (tw_at s' d = Some w) as Hw1 by (by rewrite (sa_tw _ _ _ _ (G2 d Hne))).
  destruct (C51_created_partial T _ _ st' A' ord' d w ge' ls tp s2 evn2 Hx1 HA' Hd Htp Hw1 Hwd Hge' Hwr Hls Hpr Hnd Hs2) as [-> _].
  rewrite decide_False by done. apply elem_of_list_fmap. exists fi. split; [by rewrite Hq|]. apply elem_of_list_filter. split; [by rewrite <-Hq, <-Hp|done].
Qed.
(** But with Create alone requested it is not: x is created in /d, removed and created again;
    FEN reports the removal, kqueue was not asked to. *)
Definition again_cmds (T : trig) : list cmd :=
  [XWatch (Some true) (kind (only pd [])) pd (Create (t_plat T)); XEventAt (Some true) (kind (only pd [fx])) pd (t_write T)] ++
  (if t_fds T then [] else [XEventAt None (kind (only pd [])) px (t_remove T)]) ++
  [XEventAt (Some true) (kind (only pd [])) pd (t_write T); XEventAt (Some true) (kind (only pd [fx])) pd (t_write T)].
Theorem C61_recreated_refuted T : known_trig T → ∃ tr s, texec T tr s ∧
  (sent <$> tr) = [[]; [TE px (Create (t_plat T)) false]] ++ (if t_fds T then [] else [[]]) ++ [[]; []].
Proof.
  intros HT. exists (run T (again_cmds T)).1, (run T (again_cmds T)).2. destruct HT as [-> | ->]; (split; [apply run_texec; fresh_fds|by vm_compute]).
Qed.
(** With Remove requested as well the same course of events gives Create, Remove, Create. *)
Definition again_rm (T : trig) : list cmd :=
  [XWatch (Some true) (kind (only pd [])) pd (Create (t_plat T) .| Remove (t_plat T)); XEventAt (Some true) (kind (only pd [fx])) pd (t_write T);
   XEventAt None (kind (only pd [])) px (t_remove T); XEventAt (Some true) (kind (only pd [fx])) pd (t_write T)].
Example C61_hyps T : known_trig T → texec T (run T (take 2 (again_rm T))).1 (run T (take 2 (again_rm T))).2 ∧ pd = topath [b "d"] ∧
  ((λ w, (tw_dir w, tw_eDir w)) <$> tw_at (run T (take 2 (again_rm T))).2 pd) = Some (true, Create (t_plat T) .| Remove (t_plat T)) ∧
  ((λ x, (tw_dir x, decode (t_nat2not T) (t_remove T) (tw_e x))) <$> tw_at (run T (take 2 (again_rm T))).2 px) = Some (false, Remove (t_plat T)) ∧
  (sent <$> (run T (again_rm T)).1) = [[]; [TE px (Create (t_plat T)) false]; [TE px (Remove (t_plat T)) false]; [TE px (Create (t_plat T)) false]].
Proof. intros [-> | ->]; (split; [apply run_texec; fresh_fds|split_and!; by vm_compute]). Qed.

(** ** C62: what events say *)
(** In every history an event is sent only if the native one is about something in the table;
    it names only what that is watched for, and its path is that of the subject, of an entry of
    it, or of something known below it. *)
Theorem C62_only_requested T tr s st A ord k ge evn s' : known_trig T → texec T tr s → tstep T s (TEvent st A ord k ge evn) s' →
  ∀ ev, ev ∈ evn → ∃ w, subject T s k w ∧ incl_ev (te_e ev) (tw_e w) ∧ about s A w ev.
Proof.
  intros HT Hx Hs ev Hev. apply texec_inv in Hx as Hi. inversion Hs as [| | |? ? ? ? ? ? ? Ho H]; subst.
  destruct (process_sent T HT _ _ _ _ _ _ _ _ Hi Ho H) as [[->|[w Hw]] K]; [by apply elem_of_nil in Hev|].
  exists w. split; [done|]. by destruct (K w Hw ev Hev) as (?&?&_).
Qed.
(** If the OS says of something that it is gone only where that was requested, no event is
    empty. *)
Theorem C62_nonempty_partial T tr s st A ord k ge evn s' : known_trig T → texec T tr s → tstep T s (TEvent st A ord k ge evn) s' →
  (∀ w, subject T s k w → asked T w ge) → ∀ ev, ev ∈ evn → te_e ev ≠ 0.
Proof.
  intros HT Hx Hs Ha ev Hev. apply texec_inv in Hx as Hi. inversion Hs as [| | |? ? ? ? ? ? ? Ho H]; subst.
  destruct (process_sent T HT _ _ _ _ _ _ _ _ Hi Ho H) as [[->|[w Hw]] K]; [by apply elem_of_nil in Hev|].
  apply (K w Hw ev Hev). by apply Ha.
Qed.
(** kqueue reports only what is registered, so in orderly histories no event is empty. *)
Theorem C62_kqueue_partial ty strict r s st A ord p w m ge evn s' : orderly kq ty strict r s → tw_at s p = Some w → reg_at kq s p = Some m → incl_ev ge m →
  tstep kq s (TEvent st A ord (ident_of kq w) ge evn) s' → ∀ ev, ev ∈ evn → te_e ev ≠ 0.
Proof.
  intros Ho Hw Hm Hge Hs ev Hev. apply orderly_agrees in Ho as [Hi Ha]. specialize (Ha p). unfold agree_at in Ha. rewrite Hw in Ha. destruct Ha as (_&_&_&_&Hr).
  rewrite Hm in Hr. apply Some_inj in Hr as ->. inversion Hs as [| | |? ? ? ? ? ? ? Hord H]; subst.
  assert (subject kq s (ident_of kq w) w) as Hsub.
  { split; [|done]. apply tw_at_Some in Hw as (i&Hp&Hh). destruct (ti_path _ _ Hi _ _ Hp) as (y&Hy&E&_). assert (y = w) as -> by congruence. rewrite E. by eapply tw_at_eq. }
  destruct (process_sent kq (or_introl eq_refl) _ _ _ _ _ _ _ _ Hi Hord H) as [_ K]. apply (K w Hsub ev Hev). by eapply kq_asked.
Qed.
Example C62_hyps : orderly kq isd true ex_r4 (run kq ex_cmds).2 ∧ is_Some (tw_at (run kq ex_cmds).2 pd) ∧ reg_at kq (run kq ex_cmds).2 pd = Some (NoteWrite .| NoteDelete) ∧
  (trg_process kq (run kq ex_cmds).2 None (kind (only pd [])) (keys_of (run kq ex_cmds).2) (inl 1%nat) (NoteWrite .| NoteDelete)).2 = [TE pd (Remove kqueue) true].
Proof. split; [apply ex_orderly|]. split; [apply (bool_decide_unpack _); by vm_compute|]. split; by vm_compute. Qed.
(** FEN reports removals unasked.  The directory /d is watched for Create, and removed: an event
    with no bit set is sent, and it matches every set of events. *)
Definition empty_cmds : list cmd := [XWatch (Some true) (kind (only pd [])) pd (Create fen); XEventAt None (kind (only pd [])) pd (FileModified .| FileDelete)].
Theorem C62_empty_refuted : ∃ tr s, texec fn tr s ∧ (sent <$> tr) = [[]; [TE pd 0 true]] ∧ ∀ set, disj_ev set (omit fen) → matches fen set 0 = true.
Proof.
  exists (run fn empty_cmds).1, (run fn empty_cmds).2. split; [apply run_texec; fresh_fds|]. split; [by vm_compute|].
  intros set Hd. unfold matches. assert (set .& omit fen = 0) as ->.
  { apply has_ext. intros i. rewrite has_land. split; [intros [? ?]; exfalso; by apply (Hd i)|]. intros H. unfold has in H. by rewrite N.bits_0 in H. }
  by rewrite !N.land_0_r.
Qed.

(** ** C63: Rewatch *)
(** Rewatch returns an error iff the path does not exist. *)
Theorem C63_result T tr s st A A' p e r s' : texec T tr s → tstep T s (TRewatch st A A' p e r) s' → r = ROk ↔ is_Some st.
Proof.
  intros _ H. inversion H as [| |? ? ? ? ? ? ? E|]; subst. unfold trg_Rewatch in E. destruct st as [d|].
  - destruct (trg_unwatch T s A p d) as [s1 r1]. split; [eauto|]. intros _. by destruct r1; apply pair_equal_spec in E as [_ <-].
  - apply pair_equal_spec in E as [_ <-]. split; [done|by intros [? ?]].
Qed.
(** If the OS refuses nothing it watches the path, and the entries of a directory, for the new
    events in place of the old ones. *)
Theorem C63_rewatched_partial T ty strict r s A A' p e ls ls' res s' : orderly T ty strict r s → willing A → willing A' → e ≠ 0 → listing ty A p ls → listing ty A' p ls' →
  direct r p ≠ 0 → tstep T s (TRewatch (Some (ty p)) A A' p e res) s' →
  res = ROk ∧ (∃ w, tw_at s' p = Some w ∧ tw_eDir w = e ∧ (p ∉ entries p ls' → p ∉ entries p ls → reg_at T s' p = Some (t_encode T (e .| member r p) (ty p)))) ∧
  (∀ q, q ∈ entries p ls' → q ∈ entries p ls → q ≠ p → ∃ w, tw_at s' q = Some w ∧ tw_eDir w = direct r q ∧ tw_eNonDir w = e ∧ reg_at T s' q = Some (t_encode T (direct r q .| e) (ty q))).
Proof.
  intros Ho HA HA' He Hl Hl' Hd Hs. pose proof (ord_rewatch T ty strict r s A A' p e ls ls' res s' Ho HA HA' He Hl Hl' Hd Hs) as Ho'.
  split.
  { inversion Hs as [| |? ? ? ? ? ? ? E|]; subst. unfold trg_Rewatch in E. destruct (trg_unwatch T s A p (ty p)) as [s1 r1]. by destruct r1; apply pair_equal_spec in E as [_ <-]. }
  split.
  - destruct (C50_orderly_partial T ty _ _ s' p Ho') as (K1&_&K2). cbn [role_watch role_unwatch direct member] in K1, K2. unfold orl, clr in K1, K2.
    rewrite !(decide_True (P := p ∈ [p])) in K1, K2 by left. rewrite N.lor_0_l in K1, K2. destruct K1 as [w Hw]; [by left|].
    exists w. destruct (K2 w Hw) as (D&M&R). split_and!; [done|done|]. intros H1 H2. rewrite R. by rewrite !decide_False.
  - intros q Hq1 Hq2 Hne. destruct (C50_orderly_partial T ty _ _ s' q Ho') as (K1&_&K2). cbn [role_watch role_unwatch direct member] in K1, K2. unfold orl, clr in K1, K2.
    assert (q ∉ [p]) as Hn by (by intros ?%elem_of_list_singleton).
    rewrite !(decide_False (P := q ∈ [p])) in K1, K2 by done. rewrite (decide_True (P := q ∈ entries p ls')), (decide_True (P := q ∈ entries p ls)) in K1, K2 by done.
    rewrite N.lor_0_l in K1, K2. destruct K1 as [w Hw]; [by right|]. exists w. by destruct (K2 w Hw) as (D&M&R).
Qed.
Definition rw_cmds : list cmd := [XWatch (Some true) (kind (only pd [fx])) pd (Create kqueue); XRewatch (Some true) (kind (only pd [fx])) (kind (only pd [fx])) pd (Remove kqueue)].
Example C63_hyps : orderly kq isd true ex_r1 (run kq (take 1 ex_cmds)).2 ∧ direct ex_r1 pd ≠ 0 ∧ listing isd (kind (only pd [fx])) pd [fx] ∧
  ((λ w, (tw_eDir w, tw_eNonDir w)) <$> tw_at (run kq rw_cmds).2 px) = Some (0, Remove kqueue).
Proof.
  split.
  { pose proof (run1_step kq ts_init (XWatch (Some true) (kind (only pd [fx])) pd (Create kqueue .| Remove kqueue))) as [Hs _]. cbn [run1] in Hs.
    eapply ord_watch; [apply ord_init|apply kind_willing|by vm_compute| |exact Hs]. split; [by vm_compute|]. apply Forall_singleton. by vm_compute. }
  split; [by vm_compute|]. split; [|by vm_compute]. split; [by vm_compute|]. apply Forall_singleton. by vm_compute.
Qed.
(** If it refuses, Rewatch reports success and the path is not watched at all. *)
Definition rw_refused (T : trig) : list cmd := [XWatch (Some false) (kind (only pd [])) px (Write (t_plat T)); XRewatch (Some false) (kind (only pd [])) refusing px (Rename (t_plat T))].
Theorem C63_lost_refuted T : known_trig T → ∃ tr s, texec T tr s ∧ (returned <$> tr) = [Some ROk; Some ROk] ∧ tw_at s px = None ∧ ts_reg s = ∅.
Proof.
  intros HT. exists (run T (rw_refused T)).1, (run T (rw_refused T)).2. split; [apply run_texec; fresh_fds|].
  destruct HT as [-> | ->]; (split_and!; [by vm_compute|by vm_compute|apply (bool_decide_unpack _); by vm_compute]).
Qed.

(** ** C64: the directory flag *)
(** In orderly histories the flag of an event tells whether its path is a directory, except for
    what is below a renamed directory. *)
Theorem C64_flag_partial T ty strict r s st A ord p w ls ge evn s' : known_trig T → orderly T ty strict r s → tw_at s p = Some w → listing ty A p ls →
  tstep T s (TEvent st A ord (ident_of T w) ge evn) s' →
  ∀ ev, ev ∈ evn → te_dir ev = ty (te_p ev) ∨ (below p (te_p ev) ∧ ge .& t_rename T ≠ 0 ∧ te_dir ev = true).
Proof.
  intros HT Ho Hw Hls Hs ev Hev. apply orderly_agrees in Ho as [Hi Ha]. specialize (Ha p). unfold agree_at in Ha. rewrite Hw in Ha. destruct Ha as (_&_&_&Hty&_).
  inversion Hs as [| | |? ? ? ? ? ? ? Hord H]; subst.
  apply tw_at_Some in Hw as (i&Hp&Hh). destruct (ti_path _ _ Hi _ _ Hp) as (y&Hy&E&_). assert (y = w) as -> by congruence.
  assert (subject T s (ident_of T w) w) as Hsub by (split; [rewrite E; by eapply tw_at_eq|done]).
  destruct (process_sent T HT _ _ _ _ _ _ _ _ Hi Hord H) as [_ K]. destruct (K w Hsub ev Hev) as (_&_&F&_). rewrite <-E in *.
  destruct F as [[F1 F2]|[(ls'&fi&F0&F1&F2&F3&F4)|(F1&F2&F3&F4)]].
  - left. by rewrite F1, F2.
  - unfold listing in Hls. destruct (ty (tw_p w)) eqn:Ed.
    + destruct Hls as [L1 L2]. rewrite L1 in F1. apply Some_inj in F1 as <-. rewrite Forall_forall in L2. left. by rewrite F4, F3, (L2 fi F2).
    + congruence.
  - right. done.
Qed.
(** The directory /d with the file x is watched for Rename and renamed: x is reported as a
    directory. *)
Definition mv_cmds (T : trig) : list cmd :=
  [XWatch (Some true) (kind (only pd [fx])) pd (Rename (t_plat T)); XEventAt None (kind (only pd [])) pd (t_rename T)].
Theorem C64_flag_refuted T : known_trig T → ∃ tr s, texec T tr s ∧ (tw_dir <$> tw_at (run T (take 1 (mv_cmds T))).2 px) = Some false ∧
  (sent <$> tr) = [[]; [TE pd (Rename (t_plat T)) true; TE px (Rename (t_plat T)) true]].
Proof.
  intros HT. exists (run T (mv_cmds T)).1, (run T (mv_cmds T)).2. split; [apply run_texec; fresh_fds|]. destruct HT as [-> | ->]; split; by vm_compute.
Qed.
Example C64_hyps : known_trig kq ∧ orderly kq isd true ex_r4 (run kq ex_cmds).2 ∧ is_Some (tw_at (run kq ex_cmds).2 pd) ∧ listing isd (kind (only pd [fx; fy; FI (b "z") false])) pd [fx; fy; FI (b "z") false] ∧
  (trg_process kq (run kq ex_cmds).2 (Some true) (kind (only pd [fx; fy; FI (b "z") false])) (keys_of (run kq ex_cmds).2) (inl 1%nat) NoteWrite).2 = [TE (b "/d/z") (Create kqueue) false].
Proof.
  split; [by left|]. split; [apply ex_orderly|]. split; [apply (bool_decide_unpack _); by vm_compute|]. split; [|by vm_compute].
  split; [by vm_compute|]. repeat constructor; by vm_compute.
Qed.
Print Assumptions C59_stray_partial.
Print Assumptions C59_double_close_refuted.
Print Assumptions C60_no_leak_partial.
Print Assumptions C60_all_closed_partial.
Print Assumptions C60_leak_refuted.
Print Assumptions C61_recreated_partial.
Print Assumptions C61_recreated_refuted.
Print Assumptions C62_only_requested.
Print Assumptions C62_nonempty_partial.
Print Assumptions C62_kqueue_partial.
Print Assumptions C62_empty_refuted.
Print Assumptions C63_result.
Print Assumptions C63_rewatched_partial.
Print Assumptions C63_lost_refuted.
Print Assumptions C64_flag_partial.
Print Assumptions C64_flag_refuted.
