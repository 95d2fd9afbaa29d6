(** * C85: what Close of the kqueue and FEN watcher leaves behind *)
From Verif Require Import Base Event Paths Clean Trigger SpecTrigger SpecTriggerFds TriggerFacts TriggerTab TriggerRun TriggerRoles TriggerFds TriggerEx TriggerClean SpecTriggerClean TriggerCleanFacts Prop_Trigger.
Local Open Scope N_scope.

Lemma Close_split T s l port s' res : trg_Close T s true l port = (s', res) →
  ∃ s1 es, close_loop T s l = (s1, es) ∧ ts_path s' = ts_path s1 ∧ (∀ p, tw_at s' p = tw_at s1 p) ∧ ts_open s' = ts_open s1 ∧ ts_stray s' = ts_stray s1 ∧
    res = head ((ErrUnwatch <$> es) ++ (if port then [] else [ErrPort]) ++ (if decide (ts_path s1 = ∅) then [] else [ErrRemaining])).
Proof.
  unfold trg_Close. destruct (close_loop T s l) as [s1 es]. intros [<- <-]%pair_equal_spec. exists s1, es. by destruct port.
Qed.
Lemma head_nil {A} (l : list A) : head l = None → l = [].
Proof. by destruct l. Qed.

(** In every history, whatever the OS answers: it watches nothing for the program that is not
    in the table. *)
Theorem C85_registered T tr s k e : texec T tr s → ts_reg s !! k = Some e → ∃ p w, tw_at s p = Some w ∧ tw_p w = p ∧ ident_of T w = k.
Proof.
  intros H He. destruct (good_exec T tr s H) as [Hi Ho]. destruct (Ho k e He) as (p&w&Hw&Hid). exists p, w. split_and!; [done| |done].
  apply tw_at_Some in Hw as (i&Hp&Hw). destruct (ti_path _ _ Hi p i Hp) as (x&Hx&Hxp&_). congruence.
Qed.
(** Whatever the OS answers, and in whichever order: Close adds nothing to the table; on kqueue
    it opens no descriptor, closes only open ones, and closes those of the paths that leave the
    table and no others.  If Stop fails it does nothing. *)
Theorem C85_only_closes T tr s stop l port s' res : texec T tr s → trg_Close T s stop l port = (s', res) →
  (∀ p w', tw_at s' p = Some w' → ∃ w, tw_at s p = Some w ∧ tw_fd w' = tw_fd w) ∧
  ts_open s' ⊆ ts_open s ∧ ts_stray s' = ts_stray s ∧
  (t_fds T = true → ∀ fd, fd ∈ ts_open s → fd ∉ ts_open s' ↔ ∃ p w, tw_at s p = Some w ∧ tw_fd w = fd ∧ tw_at s' p = None) ∧
  (stop = false → s' = s ∧ res = Some ErrStop).
Proof.
  intros H Hc. apply texec_inv in H as Hi. destruct stop.
  - destruct (Close_split _ _ _ _ _ _ Hc) as (s1&es&Hl&_&Ht&Ho&Hs&_). destruct (shrinks_loop T l s s1 es Hi Hl) as [Hi1 [S1 S2 S3 S4 S5]]. rewrite Ho, Hs. split_and!; [|done|done| |done].
    + intros p w'. rewrite Ht. intros Hw. destruct (S1 p w' Hw) as (w&?&?&_). by exists w.
    + intros HT fd Hfd. split.
      * intros Hn. destruct (S4 fd Hfd Hn) as (q&w&?&?&?). exists q, w. by rewrite Ht.
      * intros (p&w&Hw&<-&Hn). rewrite Ht in Hn. by eapply S5.
  - apply pair_equal_spec in Hc as [<- <-]. split_and!; [by eauto|done|done| |done].
    intros HT fd Hfd. split; [done|]. intros (p&w&H1&_&H2). congruence.
Qed.
(** If Close returns nil the table is empty; and on kqueue, if the OS never refused to register
    an open descriptor, all descriptors of watched files are closed. *)
Theorem C85_nil T tr s stop l port s' : texec T tr s → trg_Close T s stop l port = (s', None) →
  nothing s' ∧ ts_reg s' = ∅ ∧ (t_fds T = true → Forall registers_l tr → Forall registers l.*2 → ts_open s' = ∅).
Proof.
  intros H Hc. destruct stop; [|done]. apply texec_inv in H as Hi. unfold trg_Close in Hc. destruct (close_loop T s l) as [s1 es] eqn:Hl.
  apply pair_equal_spec in Hc as [<- Hr]. apply head_nil in Hr. apply app_nil in Hr as [_ Hr]. apply app_nil in Hr as [Hr1 Hr2]. destruct port; [|done]. destruct (decide (ts_path s1 = ∅)) as [E|]; [|done].
  destruct (shrinks_loop T l s s1 es Hi Hl) as [Hi1 _]. assert (nothing s1) as Hn by (by apply (nothing_path T s1 Hi1)). split_and!; [exact Hn|done|].
  intros HT HF HR. cbn. apply (nothing_open T s1 HT Hi1); [|done]. eapply leak_loop; [done|exact HR|exact Hi|by eapply texec_leak|exact Hl].
Qed.
(** If Close returns nil, each unwatch the loop made returned nil. *)
Theorem C85_errors T tr s l port s' : texec T tr s → trg_Close T s true l port = (s', None) →
  ∀ l1 p A l2 s1 es w, l = l1 ++ (p, A) :: l2 → close_loop T s l1 = (s1, es) → tw_at s1 p = Some w → (trg_unwatch T s1 A p (tw_dir w)).2 = ROk.
Proof.
  intros H Hc. apply texec_inv in H as Hi. destruct (Close_split _ _ _ _ _ _ Hc) as (sx&ex&Hl&_&_&_&_&Hr). clear Hc H. symmetry in Hr. apply head_nil in Hr. apply app_nil in Hr as [Hr _]. apply fmap_nil_inv in Hr. subst ex.
  intros l1. revert s l Hi Hl. induction l1 as [|[p0 A0] l1 IH]; intros s l Hi Hl p A l2 s1 es w -> H1 Hw; cbn [app close_loop] in Hl, H1.
  - apply pair_equal_spec in H1 as [<- _]. destruct (close1 T s p A) as [sy ey] eqn:E. destruct (close_loop T sy l2) as [sz ez]. apply pair_equal_spec in Hl as [_ Hl]. apply app_nil in Hl as [-> _].
    destruct (close1_unwatch T s p A sy [] Hi E) as [(Hn&_)|(x&r&Hx&Hu&He)]; [congruence|]. assert (x = w) as -> by congruence. rewrite Hu. cbn. destruct (decide (r = ROk)); done.
  - destruct (close1 T s p0 A0) as [sy ey] eqn:E. destruct (close_loop T sy (l1 ++ _)) as [sz ez] eqn:Ez. apply pair_equal_spec in Hl as [-> Hl]. apply app_nil in Hl as [-> ->].
    destruct (close_loop T sy l1) as [su eu] eqn:Eu. apply pair_equal_spec in H1 as [-> _].
    eapply (IH sy); [|exact Ez|done|exact Eu|exact Hw].
    destruct (close1_unwatch T s p0 A0 sy [] Hi E) as [(_&->&_)|(x&r&Hx&Hu&_)]; [done|]. by eapply trg_unwatch_inv.
Qed.
(** Whatever goes wrong elsewhere: a file that is watched directly and not as a member of a
    directory leaves the table, and on kqueue its descriptor is closed, if the OS refuses
    nothing for it. *)
Theorem C85_file T tr s l port s' res q w e : texec T tr s → tw_at s q = Some w → tw_dir w = false → tw_eNonDir w = 0 → reg_at T s q = Some e →
  q ∈ l.*1 → (∀ p A, (p, A) ∈ l → a_unwatch A q = SOk ∧ a_watch A q = SOk) →
  trg_Close T s true l port = (s', res) → tw_at s' q = None ∧ (t_fds T = true → tw_fd w ∉ ts_open s').
Proof.
  intros H Hw Hd Hm He Hq HA Hc. apply texec_inv in H as Hi. destruct (Close_split _ _ _ _ _ _ Hc) as (s1&es&Hl&Hp&Ht&Ho&_&_).
  assert (tw_at s1 q = None) as Hn. { eapply only_direct_loop; [exact HA|exact Hi| |exact Hq|exact Hl]. intros x Hx. assert (x = w) as -> by congruence. split_and!; [done|done|by exists e]. }
  rewrite Ht, Ho. split; [done|]. intros HT. destruct (shrinks_loop T l s s1 es Hi Hl) as [_ S]. by eapply (sh_gone _ _ _ S).
Qed.
(** In strictly orderly histories Close returns nil, and nothing is left, in whichever order it
    goes through the table, provided that whoever is watched as a member of a directory is still
    found there. *)
Theorem C85_all_partial T ty ls r s l s' res : orderly T ty true r s → visits s l → Forall willing l.*2 →
  (∀ p A, (p, A) ∈ l → listing ty A p (ls p)) → (∀ p, p ∉ entries p (ls p)) → found r ty ls →
  trg_Close T s true l true = (s', res) →
  res = None ∧ nothing s' ∧ ts_reg s' = ∅ ∧ (t_fds T = true → ts_open s' = ∅).
Proof.
  intros Ho Hv HA Hls Hself Hf Hc. pose proof Hc as Hc0. destruct (Close_split _ _ _ _ _ _ Hc) as (s1&es&Hl&_&Ht&_&_&Hr).
  destruct (orderly_loop T ty true ls l r s s1 es Ho HA Hls Hself Hl) as (->&r'&Ho'&D&M).
  assert (∀ q, direct r q ≠ 0 → q ∈ l.*1) as Hall.
  { intros q Hq. destruct (C50_orderly_partial T ty true r s q Ho) as (K&_). destruct (K (or_introl Hq)) as [w (i&Hp&_)%tw_at_Some].
    unfold visits in Hv. rewrite Hv. apply elem_of_list_fmap. exists (q, i). split; [done|]. by apply elem_of_map_to_list. }
  assert (nothing s1) as Hn.
  { intros q. destruct (tw_at s1 q) as [w|] eqn:Hw; [|done]. destruct (C50_orderly_partial T ty true r' s1 q Ho') as (_&K&_). exfalso. destruct K as [Hd|Hm]; [done|by eexists|..].
    - destruct (D q Hd) as [D1 D2]. by apply D2, Hall.
    - destruct (M q Hm) as [M1 M2]. destruct (Hf q M1) as (d&Hd&_&Hin). by apply (M2 d (Hall d Hd) Hd). }
  destruct (orderly_agrees T ty true r' s1 Ho') as [Hi1 _]. assert (ts_path s1 = ∅) as E by (by apply (nothing_path T s1 Hi1)).
  rewrite decide_True in Hr by done. cbn in Hr. subst res. destruct (orderly_texec T ty true r s Ho) as (tr&He&HF).
  destruct (C85_nil T tr s true l true s' He Hc0) as (N1&N2&N3). split_and!; [done|done|done|]. intros HT. apply N3; [done|done|].
  apply Forall_forall. intros A HinA. rewrite Forall_forall in HA. intros p. apply (wl_watch _ (HA A HinA)).
Qed.
(** But a file that is watched as a member and is no longer in its directory, say because it was
    removed and the monitor did not learn of it, stays in the table whatever the OS answers and
    in whichever order Close proceeds; on kqueue its descriptor stays open; Close fails. *)
Theorem C85_removed_refuted T tr s l port s' res q w : texec T tr s → tw_at s q = Some w → tw_eNonDir w ≠ 0 → unlisted s l q →
  trg_Close T s true l port = (s', res) → kept T s s' q ∧ res ≠ None.
Proof.
  intros H Hw Hm Hun Hc. apply texec_inv in H as Hi. destruct (Close_split _ _ _ _ _ _ Hc) as (s1&es&Hl&Hp&Ht&Ho&_&Hr).
  destruct (member_loop T l s s1 es q w Hi Hw Hm Hun Hl) as (w'&Hw'&_). destruct (shrinks_loop T l s s1 es Hi Hl) as [Hi1 S].
  destruct (sh_at _ _ _ S q w' Hw') as (w0&Hw0&Hfd&_). assert (w0 = w) as -> by congruence. apply tw_at_Some in Hw' as Hx. destruct Hx as (i&Hpi&Hx). split.
  - exists w, w'. split_and!; [done|by rewrite Ht|done|]. intros HT. rewrite Ho, <-Hfd. destruct (ti_path _ _ Hi1 q i Hpi) as (x&Hx'&_&Hf). rewrite Hx in Hx'. injection Hx' as <-. by apply Hf.
  - subst res. rewrite decide_False by (intros E; rewrite E, lookup_empty in Hpi; done). intros Hn%head_nil. apply app_nil in Hn as [_ Hn]. by apply app_nil in Hn as [_ Hn].
Qed.
(** So does a directory that is watched directly and can no longer be read. *)
Theorem C85_unreadable_refuted T tr s l port s' res d w : texec T tr s → tw_at s d = Some w → tw_dir w = true → tw_eDir w ≠ 0 →
  (∀ A, (d, A) ∈ l → a_ls A d = None) → trg_Close T s true l port = (s', res) → kept T s s' d ∧ res ≠ None.
Proof.
  intros H Hw Hdir Hm Hun Hc. apply texec_inv in H as Hi. destruct (Close_split _ _ _ _ _ _ Hc) as (s1&es&Hl&Hp&Ht&Ho&_&Hr).
  destruct (direct_loop T l s s1 es d w Hi Hw Hdir Hm Hun Hl) as (w'&Hw'&_). destruct (shrinks_loop T l s s1 es Hi Hl) as [Hi1 S].
  destruct (sh_at _ _ _ S d w' Hw') as (w0&Hw0&Hfd&_). assert (w0 = w) as -> by congruence. apply tw_at_Some in Hw' as Hx. destruct Hx as (i&Hpi&Hx). split.
  - exists w, w'. split_and!; [done|by rewrite Ht|done|]. intros HT. rewrite Ho, <-Hfd. destruct (ti_path _ _ Hi1 d i Hpi) as (x&Hx'&_&Hf). rewrite Hx in Hx'. injection Hx' as <-. by apply Hf.
  - subst res. rewrite decide_False by (intros E; rewrite E, lookup_empty in Hpi; done). intros Hn%head_nil. apply app_nil in Hn as [_ Hn]. by apply app_nil in Hn as [_ Hn].
Qed.
(** Closing a kqueue closes it and nothing else: its pipe stays open.  After [n] watchers were opened and closed [2 * n]
    more descriptors are open. *)
Theorem C85_pipe_refuted f X n : (∀ Y, f Y ∉ Y) →
  (∀ Y k, kq_Init f X = (Y, k) → kq_Close k Y = {[kf_r k; kf_w k]} ∪ X ∧ kf_fd k ∉ kq_Close k Y ∧ kf_r k ∉ X ∧ kf_w k ∉ X ∧ kf_r k ≠ kf_w k) ∧
  size (Nat.iter n (λ Y, let '(Y, k) := kq_Init f Y in kq_Close k Y) X) = (size X + 2 * n)%nat.
Proof.
  intros Hf. split.
  { intros Y k. unfold kq_Init, kq_Close. cbv zeta. intros [<- <-]%pair_equal_spec. cbn [kf_fd kf_r kf_w].
    pose proof (Hf X) as H1. set (x := f X) in *. pose proof (Hf ({[x]} ∪ X)) as H2. set (y := f ({[x]} ∪ X)) in *. pose proof (Hf ({[y]} ∪ ({[x]} ∪ X))) as H3. set (z := f ({[y]} ∪ ({[x]} ∪ X))) in *.
    clearbody x y z. split_and!; set_solver. }
  induction n as [|n IH]; [cbn; lia|]. rewrite Nat.iter_succ. set (Y := Nat.iter n _ X) in *. unfold kq_Init, kq_Close. cbn [kf_fd].
  pose proof (Hf Y) as H1. set (x := f Y) in *. pose proof (Hf ({[x]} ∪ Y)) as H2. set (y := f ({[x]} ∪ Y)) in *. pose proof (Hf ({[y]} ∪ ({[x]} ∪ Y))) as H3. set (z := f ({[y]} ∪ ({[x]} ∪ Y))) in *.
  assert (({[z]} ∪ ({[y]} ∪ ({[x]} ∪ Y))) ∖ {[x]} = {[z]} ∪ ({[y]} ∪ Y)) as -> by set_solver.
  rewrite !size_union, !size_singleton; [lia|set_solver|set_solver].
Qed.

(** ** Examples *)
Lemma visits_keys A s : visits s ((λ p, (p, A)) <$> keys_of s).
Proof. unfold visits. rewrite <-list_fmap_compose. fold (keys_of s). by rewrite list_fmap_id. Qed.
(** After the orderly history of C50 the table has /d, /d/x, /d/y; Close in two orders. *)
Definition cl_s : tstate := (run kq ex_cmds).2.
Definition cl_A : answers := kind (only pd [fx; fy]).
Definition cl_ls (p : str) : list finfo := if decide (p = pd) then [fx; fy] else [].
Definition cl_l : list (str * answers) := (λ p, (p, cl_A)) <$> keys_of cl_s.
Example C85_ex_all : orderly kq isd true ex_r4 cl_s ∧ visits cl_s cl_l ∧ visits cl_s (reverse cl_l) ∧ size (ts_open cl_s) = 3%nat ∧
  Forall willing cl_l.*2 ∧ (∀ p A, (p, A) ∈ cl_l → listing isd A p (cl_ls p)) ∧ (∀ p, p ∉ entries p (cl_ls p)) ∧ found ex_r4 isd cl_ls.
Proof.
  split_and!; [exact ex_orderly|apply visits_keys| |by vm_compute|..].
  - unfold visits. rewrite fmap_reverse, reverse_Permutation. apply visits_keys.
  - apply Forall_forall. intros A (x&->&(p&->&_)%elem_of_list_fmap)%elem_of_list_fmap. apply kind_willing.
  - intros p A (q&[= -> ->]&_)%elem_of_list_fmap. unfold listing, isd, cl_ls. destruct (decide (q = pd)) as [->|Hne].
    + rewrite bool_decide_eq_true_2 by done. split; [by vm_compute|]. apply Forall_cons_2; [by vm_compute|apply Forall_cons_2; [by vm_compute|apply Forall_nil_2]].
    + by rewrite bool_decide_eq_false_2.
  - intros p. unfold cl_ls. destruct (decide (p = pd)) as [->|]; [|apply not_elem_of_nil]. by apply (bool_decide_unpack _); vm_compute.
  - intros q Hq. exists pd. split_and!; [by vm_compute|by vm_compute|]. destruct (decide (q ∈ entries pd (cl_ls pd))) as [|Hn]; [done|]. exfalso. apply Hq.
    assert (q ∉ [px; py]) as Hn' by exact Hn. apply not_elem_of_cons in Hn' as [H1 Hn']. apply not_elem_of_cons in Hn' as [H2 _].
    unfold ex_r4, ex_r3, ex_r2, ex_r1. cbn [role_unwatch role_rescan role_watch member]. unfold clr, orl.
    repeat (rewrite decide_False; [|let H := fresh in intros H; first [by apply elem_of_nil in H|revert H; apply not_elem_of_cons; split; [done|]; first [apply not_elem_of_nil|apply not_elem_of_cons; split; [done|apply not_elem_of_nil]]]]). done.
Qed.
Example C85_ex_run : (trg_Close kq cl_s true cl_l true).2 = None ∧ ts_open (trg_Close kq cl_s true (reverse cl_l) true).1 = ∅.
Proof. split; [by vm_compute|]. apply (bool_decide_unpack _). by vm_compute. Qed.
(** The file y is removed just before Close. *)
Definition cl_gone : list (str * answers) := (λ p, (p, kind (only pd [fx]))) <$> keys_of cl_s.
Example C85_ex_removed : visits cl_s cl_gone ∧ unlisted cl_s cl_gone py ∧ (tw_eNonDir <$> tw_at cl_s py) = Some (Create kqueue .| Remove kqueue) ∧
  (trg_Close kq cl_s true cl_gone true).2 = Some ErrRemaining ∧ ts_open (trg_Close kq cl_s true cl_gone true).1 = {[3%nat]}.
Proof.
  split_and!; [apply visits_keys| |by vm_compute|by vm_compute|by apply (bool_decide_unpack _); vm_compute].
  intros d A w ls (q&[= -> ->]&_)%elem_of_list_fmap _ _ Hl. unfold kind, only in Hl. cbn [a_ls] in Hl. destruct (decide (q = pd)) as [->|]; [|done]. injection Hl as <-. by apply (bool_decide_unpack _); vm_compute.
Qed.
(** The directory itself is removed with its files. *)
Definition cl_rmdir : list (str * answers) := (λ p, (p, kind (λ _, None))) <$> keys_of cl_s.
Example C85_ex_unreadable : visits cl_s cl_rmdir ∧ (tw_eDir <$> tw_at cl_s pd) = Some (Create kqueue .| Remove kqueue) ∧
  (trg_Close kq cl_s true cl_rmdir true).2 = Some (ErrUnwatch RErr) ∧ size (ts_open (trg_Close kq cl_s true cl_rmdir true).1) = 3%nat.
Proof. split_and!; [apply visits_keys|by vm_compute..]. Qed.
(** A file watched by itself beside a directory that cannot be read when Close comes to it: the
    file goes, the directory and its member stay, Close returns the error of the directory. *)
Definition pz : str := b "/z".
Definition cl_cmds : list cmd := [XWatch (Some true) (kind (only pd [fx])) pd (Create kqueue); XWatch (Some false) (kind (λ _, None)) pz (Write kqueue)].
Definition cl_s2 : tstate := (run kq cl_cmds).2.
Definition cl_bad : list (str * answers) := (λ p, (p, kind (λ _, None))) <$> keys_of cl_s2.
Example C85_ex_file : texec kq (run kq cl_cmds).1 cl_s2 ∧ visits cl_s2 cl_bad ∧ tw_at cl_s2 pz = Some (TW pz false (Write kqueue) 0 3) ∧ reg_at kq cl_s2 pz = Some NoteWrite ∧
  (∀ p A, (p, A) ∈ cl_bad → a_unwatch A pz = SOk ∧ a_watch A pz = SOk) ∧
  (trg_Close kq cl_s2 true cl_bad true).2 = Some (ErrUnwatch RErr) ∧ ts_open (trg_Close kq cl_s2 true cl_bad true).1 = {[1%nat; 2%nat]}.
Proof.
  split_and!; [apply run_texec|apply visits_keys|by vm_compute|by vm_compute| |by vm_compute|by apply (bool_decide_unpack _); vm_compute].
  - apply Forall_cons_2; [exact next_fd_fresh|apply Forall_cons_2; [exact next_fd_fresh|apply Forall_nil_2]].
  - by intros p A (q&[= -> ->]&_)%elem_of_list_fmap.
Qed.
