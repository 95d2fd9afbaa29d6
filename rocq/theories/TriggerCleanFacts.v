(** * TriggerCleanFacts: proofs about Close of the kqueue and FEN watcher *)
From Verif Require Import Base Event Paths Clean Trigger SpecTrigger SpecTriggerFds TriggerFacts TriggerTab TriggerRun TriggerRoles TriggerFds TriggerClean SpecTriggerClean.
Local Open Scope N_scope.

Section facts.
Context (T : trig).

(** ** Whatever is registered is in the table *)
Definition owned (s : tstate) : Prop := ∀ k e, ts_reg s !! k = Some e → ∃ p w, tw_at s p = Some w ∧ ident_of T w = k.
Lemma owned_init : owned ts_init.
Proof. intros k e H. cbn in H. by rewrite lookup_empty in H. Qed.
Lemma owned_set s i w w' : owned s → ts_heap s !! i = Some w → tw_p w' = tw_p w → tw_fd w' = tw_fd w → owned (set_tw s i w').
Proof.
  intros Ho Hw Hp Hf k e He. destruct (Ho k e He) as (q&x&Hx&Hid). apply tw_at_Some in Hx as (j&Hj&Hx). destruct (decide (i = j)) as [<-|Hne].
  - rewrite Hw in Hx. injection Hx as <-. exists q, w'. split; [eapply tw_at_eq; [exact Hj|apply lookup_insert]|]. rewrite <-Hid. unfold ident_of. by rewrite Hp, Hf.
  - exists q, x. split; [|done]. eapply tw_at_eq; [exact Hj|]. cbn. by rewrite lookup_insert_ne.
Qed.
Lemma owned_delete s k : owned s → owned (set_reg s (delete k (ts_reg s))).
Proof. intros Ho k' e He. cbn in He. apply lookup_delete_Some in He as [_ He]. exact (Ho k' e He). Qed.
Lemma owned_insert s p i w e : owned s → ts_path s !! p = Some i → ts_heap s !! i = Some w → owned (set_reg s (<[ident_of T w := e]> (ts_reg s))).
Proof.
  intros Ho Hp Hw k e' He. cbn -[ident_of] in He. apply lookup_insert_Some in He as [[<- _]|[_ He]]; [|exact (Ho k e' He)].
  exists p, w. split; [|done]. by eapply tw_at_eq.
Qed.
Lemma owned_watched s p i w w' d : owned s → ts_path s !! p = Some i → ts_heap s !! i = Some w → tw_p w' = tw_p w → tw_fd w' = tw_fd w → owned (watched_state T s i w' d).
Proof.
  intros Ho Hp Hw H1 H2. unfold watched_state. change (ts_reg s) with (ts_reg (set_tw s i w')). eapply owned_insert; [by eapply owned_set|exact Hp|apply lookup_insert].
Qed.
Lemma owned_unreg s i w w' : owned s → ts_heap s !! i = Some w → tw_p w' = tw_p w → tw_fd w' = tw_fd w → owned (unreg_state T s i w').
Proof. intros Ho Hw H1 H2. unfold unreg_state. change (ts_reg s) with (ts_reg (set_tw s i w')). apply owned_delete. by eapply owned_set. Qed.
Lemma owned_alloc s A w : tinv T s → owned s → owned (alloc T s A w).
Proof. intros Hi Ho k e He. destruct (Ho k e He) as (q&x&Hx&Hid). exists q, x. split; [|done]. by rewrite (sa_tw _ _ _ _ (same_alloc T s A w q Hi)). Qed.
Lemma owned_recorded s A w d : tinv T s → owned s → fresh_fd A → tw_fd w = new_fd T s A → ts_path s !! tw_p w = None → owned (recorded_state T s A w d).
Proof.
  intros Hi Ho HA Hf Hp k e He. change (ts_reg (recorded_state T s A w d)) with (<[ident_of T w := t_encode T (tw_e w) d]> (ts_reg s)) in He.
  apply lookup_insert_Some in He as [[<- _]|[_ He]].
  - exists (tw_p w), w. split; [|done]. eapply tw_at_eq; cbn; apply lookup_insert.
  - destruct (Ho k e He) as (q&x&Hx&Hid). exists q, x. split; [|done]. assert (tw_p w ≠ q) as Hne by (intros Eq; apply tw_at_Some in Hx as (j&Hj&_); congruence).
    by rewrite (sa_tw _ _ _ _ (same_recorded T s A w d q Hi HA Hf Hp Hne)).
Qed.
Lemma owned_del s i w : owned s → ts_heap s !! i = Some w → ts_path s !! tw_p w = Some i ∨ ts_path s !! tw_p w = None →
  (t_fds T = false → ts_reg s !! ident_of T w = None) → owned (t_Del T s i).
Proof.
  intros Ho Hw Hp Hn k e He.
  assert (ts_reg s !! k = Some e ∧ k ≠ ident_of T w) as [He' Hk].
  { unfold t_Del in He. rewrite Hw in He. unfold ident_of in *. destruct (t_fds T); cbn in He; [apply lookup_delete_Some in He as [? ?]; done|].
    split; [done|]. intros ->. rewrite Hn in He; done. }
  destruct (Ho k e He') as (q&x&Hx&Hid). exists q, x. split; [|done]. pose proof Hx as Hx0. apply tw_at_Some in Hx as (j&Hj&Hx).
  assert (q ≠ tw_p w) as Hne. { intros ->. destruct Hp as [Hp|Hp]; [|congruence]. assert (j = i) as -> by congruence. rewrite Hw in Hx. injection Hx as ->. done. }
  eapply tw_at_eq; [|unfold t_Del; rewrite Hw; destruct (t_fds T); exact Hx]. unfold t_Del. rewrite Hw. destruct (t_fds T); cbn; by rewrite lookup_delete_ne.
Qed.
Lemma owned_singlewatch s A p e m d s' r : tinv T s → fresh_fd A → owned s → singlewatch T s A p e m d = (s', r) → owned s'.
Proof.
  intros Hi HA Ho H. destruct (ts_path s !! p) as [i|] eqn:Hp.
  - destruct (ti_path _ _ Hi p i Hp) as (w&Hw&Hwp&_). rewrite (singlewatch_known T s A p e m d i w Hi Hp Hw) in H.
    destruct (a_watch A p); apply pair_equal_spec in H as [<- _].
    + eapply owned_watched; [done..|apply add_role_p|apply add_role_fd].
    + eapply owned_set; [done..|apply add_role_p|apply add_role_fd].
    + eapply owned_set; [done..|apply add_role_p|apply add_role_fd].
  - rewrite (singlewatch_new T s A p e m d Hp) in H. destruct (opens T A p); [|apply pair_equal_spec in H as [<- _]; done..].
    cbv zeta in H. destruct (a_watch A p); apply pair_equal_spec in H as [<- _]; [|by apply owned_alloc..].
    apply owned_recorded; [done|done|done|by rewrite add_role_fd|by rewrite add_role_p].
Qed.
Lemma owned_singleunwatch s A p m s' r : tinv T s → owned s → singleunwatch T s A p m = (s', r) → owned s'.
Proof.
  intros Hi Ho H. destruct (ts_path s !! p) as [i|] eqn:Hp.
  - destruct (ti_path _ _ Hi p i Hp) as (w&Hw&Hwp&_). rewrite (singleunwatch_known T s A p m i w Hi Hp Hw) in H. cbv zeta in H.
    assert (owned (set_tw s i (clear_role m w))) as K1 by (eapply owned_set; [done..|apply clear_role_p|apply clear_role_fd]).
    assert (owned (unreg_state T s i (clear_role m w))) as K2 by (eapply owned_unreg; [done..|apply clear_role_p|apply clear_role_fd]).
    assert (ts_heap (unreg_state T s i (clear_role m w)) !! i = Some (clear_role m w)) as Hw' by apply lookup_insert.
    destruct (a_unwatch A p); [|apply pair_equal_spec in H as [<- _]; done..].
    destruct (ts_reg s !! ident_of T w); [|apply pair_equal_spec in H as [<- _]; done].
    destruct (nonzero (tw_e (clear_role m w))).
    + destruct (a_watch A p); apply pair_equal_spec in H as [<- _]; [|done|done]. eapply owned_watched; [exact K2|exact Hp|exact Hw'|done|done].
    + apply pair_equal_spec in H as [<- _]. eapply owned_del; [exact K2|exact Hw'| |].
      * left. rewrite clear_role_p, Hwp. exact Hp.
      * intros _. cbn -[ident_of]. apply lookup_delete.
  - unfold singleunwatch in H. rewrite Hp in H. apply pair_equal_spec in H as [<- _]. done.
Qed.
Definition good (s : tstate) : Prop := tinv T s ∧ owned s.
Lemma good_walk s A p f s' r : good s → (∀ s fi s' r, good s → f s fi = (s', r) → good s') → walk s A p f = (s', r) → good s'.
Proof.
  intros Hi Hf H. unfold walk in H. destruct (a_ls A p) as [ls|]; [|by apply pair_equal_spec in H as [<- _]].
  revert s Hi H. induction ls as [|fi ls IH]; intros s Hi H; cbn [walk_fold] in H; [by apply pair_equal_spec in H as [<- _]|].
  destruct (f s fi) as [s1 r1] eqn:E. pose proof (Hf _ _ _ _ Hi E) as H1. destruct r1; [by apply (IH s1)|apply pair_equal_spec in H as [<- _]; done..].
Qed.
Lemma good_singlewatch s A p e m d s' r : fresh_fd A → good s → singlewatch T s A p e m d = (s', r) → good s'.
Proof. intros HA [Hi Ho] H. split; [by eapply singlewatch_inv|by eapply owned_singlewatch]. Qed.
Lemma good_singleunwatch s A p m s' r : good s → singleunwatch T s A p m = (s', r) → good s'.
Proof. intros [Hi Ho] H. split; [by eapply singleunwatch_inv|by eapply owned_singleunwatch]. Qed.
Lemma good_watch s A p e d s' r : fresh_fd A → good s → trg_watch T s A p e d = (s', r) → good s'.
Proof.
  intros HA Hi H. unfold trg_watch in H. destruct (singlewatch T s A p e MDir d) as [s1 r1] eqn:E. pose proof (good_singlewatch _ _ _ _ _ _ _ _ HA Hi E) as H1.
  assert ((if d then walk s1 A p (watch_entry T A p e) else (s1, ROk)) = (s', r) → good s') as K.
  { destruct d; [|by intros [<- _]%pair_equal_spec]. apply good_walk; [done|]. clear - HA. intros s fi s' r Hi H. unfold watch_entry in H.
    destruct (singlewatch T s A _ _ _ _) as [s1 r1] eqn:E. apply pair_equal_spec in H as [<- _]. by eapply good_singlewatch. }
  destruct r1; first [by apply K | apply pair_equal_spec in H as [<- _]; done].
Qed.
Lemma good_unwatch s A p d s' r : good s → trg_unwatch T s A p d = (s', r) → good s'.
Proof.
  intros Hi H. unfold trg_unwatch in H. destruct (if d then walk s A p (unwatch_entry T A p) else (s, ROk)) as [s1 r1] eqn:E.
  assert (good s1) as H1.
  { destruct d; [|by apply pair_equal_spec in E as [<- _]]. eapply good_walk; [exact Hi| |exact E]. clear. intros s fi s' r Hi H. unfold unwatch_entry in H.
    destruct (singleunwatch T s A _ _) as [s1 r1] eqn:E. apply pair_equal_spec in H as [<- _]. by eapply good_singleunwatch. }
  destruct r1; [by eapply good_singleunwatch|apply pair_equal_spec in H as [<- _]; done..].
Qed.
Lemma good_moved A w e ord s evn s' evn' : good s → foldl (dir_moved1 T A w e) (s, evn) ord = (s', evn') → good s'.
Proof.
  revert s evn. induction ord as [|k ord IH]; intros s evn Hi H; cbn [foldl] in H; [by apply pair_equal_spec in H as [<- _]|].
  destruct (dir_moved1 T A w e (s, evn) k) as [s1 evn1] eqn:E. eapply IH; [|exact H]. unfold dir_moved1 in E. destruct (has_prefix _ _); [|by apply pair_equal_spec in E as [<- _]].
  apply pair_equal_spec in E as [<- _]. destruct (singleunwatch T s A k MBoth) as [s2 r2] eqn:E2. by eapply good_singleunwatch.
Qed.
Lemma good_rescan A w ls s evn s' evn' : fresh_fd A → good s → foldl (rescan1 T A w) (s, evn) ls = (s', evn') → good s'.
Proof.
  intros HA. revert s evn. induction ls as [|fi ls IH]; intros s evn Hi H; cbn [foldl] in H; [by apply pair_equal_spec in H as [<- _]|].
  destruct (rescan1 T A w (s, evn) fi) as [s1 evn1] eqn:E. eapply IH; [|exact H]. unfold rescan1 in E. destruct (singlewatch T s A _ _ _ _) as [s2 r2] eqn:E2.
  apply pair_equal_spec in E as [<- _]. by eapply good_singlewatch.
Qed.
Lemma owned_process s st A ord k ge s' evn : fresh_fd A → good s → trg_process T s st A ord k ge = (s', evn) → owned s'.
Proof.
  intros HA Hg0 H. unfold trg_process in H.
  set (s0 := if t_fds T then s else set_reg s (delete k (ts_reg s))) in *.
  assert (good s0) as [Hi Ho].
  { unfold s0. destruct Hg0. destruct (t_fds T); [done|]. split; [by apply tinv_reg_delete|by apply owned_delete]. }
  assert (t_fds T = false → ts_reg s0 !! k = None) as Hn by (unfold s0; intros ->; apply lookup_delete). clearbody s0. clear Hg0.
  destruct (t_Watched T s0 k) as [i|] eqn:Hk; [|by apply pair_equal_spec in H as [<- _]].
  destruct (Watched_path T s0 k i Hi Hk) as (w&Hw&Hp&Hid). rewrite Hw in H. cbv zeta in H. rewrite <-Hid in Hn. clear Hk.
  destruct (ge .& native_gone T =? 0) eqn:Hg; cbn [negb] in H.
  - match type of H with (if _ then (?x, _) else _) = _ => set (s1 := x) in * end.
    assert (good s1) as H1.
    { unfold s1. destruct st as [d|]; [|by split]. destruct (t_Watch T s0 A i _) as [s2 r2] eqn:E.
      destruct (watch_call_inv T _ _ _ _ _ _ _ Hi Hw E) as (H2&H3&H4&H5).
      unfold t_Watch in E. rewrite Hw in E. destruct (a_watch A (tw_p w)); [destruct (live T s0 w)|..]; apply pair_equal_spec in E as [<- <-]; cbn [res_of].
      1: { split; [done|by eapply owned_insert]. }
      all: split; [by eapply del_inv|eapply owned_del; [done|done|by left|done]]. }
    clearbody s1. destruct ((_ =? 0) && _); [apply pair_equal_spec in H as [<- _]; by destruct H1|].
    destruct (tw_dir w); [|apply pair_equal_spec in H as [<- _]; by destruct H1].
    destruct (trg_dir T s1 A ord i w _ ge) as [s2 evn2] eqn:E. apply pair_equal_spec in H as [<- _].
    unfold trg_dir in E. rewrite Hg in E. cbn [negb] in E. destruct (nonzero (ge .& t_write T)); [|apply pair_equal_spec in E as [<- _]; by destruct H1].
    destruct (a_ls A (tw_p w)); [|apply pair_equal_spec in E as [<- _]; by destruct H1]. by destruct (good_rescan _ _ _ _ _ _ _ HA H1 E).
  - destruct ((_ =? 0) && _); [by apply pair_equal_spec in H as [<- _]|].
    destruct (tw_dir w).
    + destruct (trg_dir T s0 A ord i w _ ge) as [s2 evn2] eqn:E. apply pair_equal_spec in H as [<- _].
      unfold trg_dir in E. rewrite Hg in E. cbn [negb] in E.
      destruct (if nonzero (ge .& t_rename T) then _ else _) as [s3 evn3] eqn:E3. apply pair_equal_spec in E as [<- _].
      assert (good s3 ∧ same_at T s0 s3 (tw_p w)) as [[H3 O3] H4].
      { destruct (nonzero (ge .& t_rename T)); [split; [by eapply good_moved|by eapply moved_inv]|]. apply pair_equal_spec in E3 as [<- _]. split; [by split|apply same_refl]. }
      pose proof (sa_path _ _ _ _ H4) as Hp3. rewrite Hp in Hp3.
      pose proof (sa_tw _ _ _ _ H4) as Hw3. rewrite (tw_at_eq _ _ _ _ Hp Hw) in Hw3. apply tw_at_Some in Hw3 as (j&Hj&Hw3). rewrite Hp3 in Hj. injection Hj as <-.
      assert (t_fds T = false → ts_reg s3 !! ident_of T w = None) as Hn3.
      { intros HT. pose proof (sa_reg _ _ _ _ H4) as Hr. unfold reg_at in Hr. rewrite (tw_at_eq _ _ _ _ Hp Hw), (tw_at_eq _ _ _ _ Hp3 Hw3) in Hr. cbn [mbind option_bind] in Hr. rewrite Hr. by apply Hn. }
      destruct (del_gone T s3 i w Hw3) as (G1&G2&G3).
      eapply owned_del; [eapply owned_del; [done|done|by left|done]|by rewrite G3|by right|].
      intros HT. unfold t_Del. rewrite Hw3, HT. cbn. by apply Hn3.
    + apply pair_equal_spec in H as [<- _]. eapply owned_del; [done|done|by left|done].
Qed.
Lemma good_step s l s' : good s → label_ok l → tstep T s l s' → good s'.
Proof.
  intros [Hi Ho] Hl Hs. split; [by eapply tstep_inv|]. destruct Hs as [st A p e s' r H|st A p s' r H|st A A' p e s' r H|st A ord k ge s' evn Ho' H]; cbn in Hl.
  - unfold trg_Watch in H. destruct st; [by eapply (good_watch s)|by apply pair_equal_spec in H as [<- _]].
  - unfold trg_Unwatch in H. destruct st; [by eapply (good_unwatch s)|by apply pair_equal_spec in H as [<- _]].
  - unfold trg_Rewatch in H. destruct st; [|by apply pair_equal_spec in H as [<- _]]. destruct Hl as [_ Hl].
    destruct (trg_unwatch T s A p b) as [s1 r1] eqn:E. assert (good s1) as H1 by (by eapply (good_unwatch s)).
    destruct r1; [|apply pair_equal_spec in H as [<- _]; by destruct H1..]. apply pair_equal_spec in H as [<- _].
    destruct (trg_watch T s1 A' p e b) as [s2 r2] eqn:E2. by eapply (good_watch s1).
  - by eapply owned_process.
Qed.
Lemma good_exec tr s : texec T tr s → good s.
Proof. induction 1 as [|tr s l s' He IH Hl Hs]; [split; [apply tinv_init|apply owned_init]|by eapply good_step]. Qed.

(** ** What unwatching does to the table and the descriptors *)
Record shrinks (s s' : tstate) : Prop := {
  sh_at : ∀ q w', tw_at s' q = Some w' → ∃ w, tw_at s q = Some w ∧ tw_fd w' = tw_fd w ∧ tw_dir w' = tw_dir w;
  sh_open : ts_open s' ⊆ ts_open s;
  sh_stray : ts_stray s' = ts_stray s;
  sh_closed : ∀ fd, fd ∈ ts_open s → fd ∉ ts_open s' → ∃ q w, tw_at s q = Some w ∧ tw_fd w = fd ∧ tw_at s' q = None;
  sh_gone : t_fds T = true → ∀ q w, tw_at s q = Some w → tw_at s' q = None → tw_fd w ∉ ts_open s';
}.
Lemma shrinks_refl s : shrinks s s.
Proof. split; try done; [intros q w H; by exists w|intros _ q w H1 H2; congruence]. Qed.
Lemma shrinks_trans s1 s2 s3 : shrinks s1 s2 → shrinks s2 s3 → shrinks s1 s3.
Proof.
  intros [A1 A2 A3 A4 A5] [B1 B2 B3 B4 B5]. split; [|by etrans|congruence|..].
  - intros q w H. destruct (B1 q w H) as (w2&H2&E1&E2). destruct (A1 q w2 H2) as (w1&H1&E3&E4). exists w1. split_and!; congruence.
  - intros fd H1 H3. destruct (decide (fd ∈ ts_open s2)) as [H2|H2].
    + destruct (B4 fd H2 H3) as (q&w&Hw&Hf&Hn). destruct (A1 q w Hw) as (w1&Hw1&E&_). exists q, w1. split_and!; congruence.
    + destruct (A4 fd H1 H2) as (q&w&Hw&Hf&Hn). exists q, w. split_and!; [done|done|]. destruct (tw_at s3 q) as [x|] eqn:Hx; [|done]. destruct (B1 q x Hx) as (y&Hy&_). congruence.
  - intros HT q w H1 H3. destruct (tw_at s2 q) as [w2|] eqn:H2.
    + destruct (A1 q w2 H2) as (w1&Hw1&E&_). assert (w1 = w) as -> by congruence. rewrite <-E. by eapply B5.
    + intros Hin. apply B2 in Hin. by eapply A5.
Qed.
Lemma singleunwatch_result s A p m s' r : tinv T s → singleunwatch T s A p m = (s', r) →
  match tw_at s p with
  | None => s' = s
  | Some w => (tw_at s' p = Some (clear_role m w) ∧ ts_open s' = ts_open s ∧ ts_stray s' = ts_stray s) ∨
      (tw_e (clear_role m w) = 0 ∧ tw_at s' p = None ∧ ts_stray s' = ts_stray s ∧ ts_open s' = if t_fds T then ts_open s ∖ {[tw_fd w]} else ts_open s)
  end.
Proof.
  intros Hi H. destruct (ts_path s !! p) as [i|] eqn:Hp.
  - destruct (ti_path _ _ Hi p i Hp) as (w&Hw&Hwp&Hf). rewrite (tw_at_eq s p i w Hp Hw). rewrite (singleunwatch_known T s A p m i w Hi Hp Hw) in H. cbv zeta in H.
    assert (∀ s2, ts_path s2 = ts_path s → ts_heap s2 !! i = Some (clear_role m w) → tw_at s2 p = Some (clear_role m w)) as K.
    { intros s2 E1 E2. eapply tw_at_eq; [|exact E2]. by rewrite E1. }
    destruct (a_unwatch A p); [|apply pair_equal_spec in H as [<- _]; left; split_and!; [apply K; [done|apply lookup_insert]|done|done]..].
    destruct (ts_reg s !! ident_of T w); [|apply pair_equal_spec in H as [<- _]; left; split_and!; [apply K; [done|apply lookup_insert]|done|done]].
    destruct (nonzero (tw_e (clear_role m w))) eqn:He.
    + left. destruct (a_watch A p); apply pair_equal_spec in H as [<- _]; (split_and!; [apply K; [done|apply lookup_insert]|done|done]).
    + right. apply negb_false_iff, N.eqb_eq in He. apply pair_equal_spec in H as [<- _].
      assert (ts_heap (unreg_state T s i (clear_role m w)) !! i = Some (clear_role m w)) as Hw' by apply lookup_insert.
      destruct (del_gone T _ i _ Hw') as (G&_&_). rewrite clear_role_p, Hwp in G. split_and!; [done|unfold tw_at; by rewrite G|..].
      * unfold t_Del. rewrite Hw'. destruct (t_fds T); [|done]. cbn. rewrite clear_role_fd. rewrite bool_decide_eq_true_2; [done|]. by apply Hf.
      * unfold t_Del. rewrite Hw'. destruct (t_fds T); [|done]. cbn. by rewrite clear_role_fd.
  - assert (tw_at s p = None) as -> by (by apply (tw_at_None T)). unfold singleunwatch in H. rewrite Hp in H. by apply pair_equal_spec in H as [<- _].
Qed.
Lemma shrinks_singleunwatch s A p m s' r : tinv T s → singleunwatch T s A p m = (s', r) → shrinks s s'.
Proof.
  intros Hi H. pose proof (singleunwatch_result s A p m s' r Hi H) as K.
  assert (∀ q, p ≠ q → tw_at s' q = tw_at s q) as Ho. { intros q Hne. exact (sa_tw _ _ _ _ (singleunwatch_same T s A p m s' r q Hi H Hne)). }
  destruct (tw_at s p) as [w|] eqn:Hw; [|subst s'; apply shrinks_refl]. destruct K as [(K1&K2&K3)|(_&K1&K3&K2)].
  - split; [|by rewrite K2|done|..].
    + intros q x Hx. destruct (decide (p = q)) as [<-|Hne]; [|rewrite Ho in Hx by done; by exists x]. rewrite K1 in Hx. injection Hx as <-. exists w. by rewrite clear_role_fd, clear_role_dir.
    + intros fd H1 H2. rewrite K2 in H2. done.
    + intros _ q x H1 H2. destruct (decide (p = q)) as [<-|Hne]; [congruence|]. rewrite Ho in H2 by done. congruence.
  - split; [| |done|..].
    + intros q x Hx. destruct (decide (p = q)) as [<-|Hne]; [congruence|rewrite Ho in Hx by done; by exists x].
    + rewrite K2. destruct (t_fds T); [apply subseteq_difference_l|]; done.
    + intros fd H1 H2. rewrite K2 in H2. destruct (t_fds T); [|done]. exists p, w. split_and!; [done| |done].
      destruct (decide (tw_fd w = fd)) as [|Hne]; [done|]. destruct H2. apply elem_of_difference. split; [done|]. intros ?%elem_of_singleton. done.
    + intros HT q x H1 H2. destruct (decide (p = q)) as [<-|Hne]; [|rewrite Ho in H2 by done; congruence]. assert (x = w) as -> by congruence.
      rewrite K2, HT. intros [_ F]%elem_of_difference. apply F. by apply elem_of_singleton.
Qed.
(** A property that survives singleunwatch of the entries and of the path survives unwatch. *)
Lemma unwatch_ind (P : tstate → Prop) s A p d s' r :
  (∀ s fi ls s' r, d = true → a_ls A p = Some ls → fi ∈ ls → tinv T s → P s → singleunwatch T s A (join p (fi_name fi)) MNDir = (s', r) → P s') →
  (∀ s s' r, tinv T s → P s → singleunwatch T s A p MDir = (s', r) → d = true ∧ a_ls A p = None ∨ P s') →
  (d = true → a_ls A p = None → P s) →
  tinv T s → P s → trg_unwatch T s A p d = (s', r) → P s'.
Proof.
  intros He Hs Hn Hi HP H. unfold trg_unwatch in H. destruct (if d then walk s A p (unwatch_entry T A p) else (s, ROk)) as [s1 r1] eqn:E.
  assert (tinv T s1 ∧ P s1 ∧ (r1 = ROk → ¬ (d = true ∧ a_ls A p = None))) as (H1&P1&N1).
  { destruct d; [|apply pair_equal_spec in E as [<- <-]; split_and!; [done|done|by intros _ []]]. unfold walk in E.
    destruct (a_ls A p) as [ls|] eqn:Hls; [|apply pair_equal_spec in E as [<- <-]; split_and!; done].
    cut (tinv T s1 ∧ P s1). { intros []. split_and!; [done|done|by intros _ []]. }
    assert (∀ l, (∀ fi, fi ∈ l → fi ∈ ls) → ∀ s, tinv T s → P s → walk_fold (unwatch_entry T A p) s l = (s1, r1) → tinv T s1 ∧ P s1) as K; [|by eapply K].
    clear E Hi HP Hn Hs s. induction l as [|fi l IH]; intros Hin s Hi HP E; cbn [walk_fold] in E; [by apply pair_equal_spec in E as [<- _]|].
    unfold unwatch_entry in E at 1. destruct (singleunwatch T s A (join p (fi_name fi)) MNDir) as [s2 r2] eqn:E2.
    assert (tinv T s2) as H2 by (by eapply singleunwatch_inv). assert (P s2) as P2. { eapply (He s fi ls); [done|done|apply Hin; by left|done|done|exact E2]. }
    assert (∀ x, x ∈ l → x ∈ ls) as Hin' by (intros x Hx; apply Hin; by right).
    destruct r2; first [by apply (IH Hin' s2) | apply pair_equal_spec in E as [<- _]; done]. }
  destruct r1; [|apply pair_equal_spec in H as [<- _]; done..]. destruct (Hs s1 s' r H1 P1 H) as [F|]; [|done]. by destruct (N1 eq_refl).
Qed.
Lemma shrinks_unwatch s A p d s' r : tinv T s → trg_unwatch T s A p d = (s', r) → shrinks s s'.
Proof.
  intros Hi H. eapply (unwatch_ind (shrinks s)); [| | |exact Hi|apply shrinks_refl|exact H].
  - intros s1 fi ls s2 r2 _ _ _ H1 K E. eapply shrinks_trans; [exact K|]. by eapply shrinks_singleunwatch.
  - intros s1 s2 r2 H1 K E. right. eapply shrinks_trans; [exact K|]. by eapply shrinks_singleunwatch.
  - intros _ _. apply shrinks_refl.
Qed.
(** The loop: [close1] is unwatch or nothing. *)
Lemma close1_unwatch s p A s' es : tinv T s → close1 T s p A = (s', es) →
  (tw_at s p = None ∧ s' = s ∧ es = []) ∨
  ∃ w r, tw_at s p = Some w ∧ trg_unwatch T s A p (tw_dir w) = (s', r) ∧ es = if decide (r = ROk) then [] else [r].
Proof.
  intros Hi H. unfold close1 in H. fold (tw_at s p) in H. destruct (tw_at s p) as [w|] eqn:Hw; [|left; by apply pair_equal_spec in H as [<- <-]].
  right. apply tw_at_Some in Hw as (i&Hp&Hw). destruct (ti_path _ _ Hi p i Hp) as (x&Hx&Hxp&_). rewrite Hw in Hx. injection Hx as <-. rewrite Hxp in H.
  destruct (trg_unwatch T s A p (tw_dir w)) as [s1 r1] eqn:E. exists w, r1. split; [done|]. split; [by destruct r1; apply pair_equal_spec in H as [<- _]|].
  destruct r1; apply pair_equal_spec in H as [_ <-]; [by rewrite decide_True|by rewrite decide_False..].
Qed.
Lemma loop_ind (P : tstate → Prop) l s s' es :
  (∀ s p A s' w r, (p, A) ∈ l → tinv T s → P s → tw_at s p = Some w → trg_unwatch T s A p (tw_dir w) = (s', r) → P s') →
  tinv T s → P s → close_loop T s l = (s', es) → tinv T s' ∧ P s'.
Proof.
  intros Hp. assert (∀ k, (∀ x, x ∈ k → x ∈ l) → ∀ s es, tinv T s → P s → close_loop T s k = (s', es) → tinv T s' ∧ P s') as K; [|by eapply K].
  induction k as [|[p A] k IH]; intros Hin s1 es1 Hi HP H; cbn [close_loop] in H; [by apply pair_equal_spec in H as [<- _]|].
  destruct (close1 T s1 p A) as [s2 e2] eqn:E. destruct (close_loop T s2 k) as [s3 e3] eqn:E3. apply pair_equal_spec in H as [<- _].
  assert (∀ x, x ∈ k → x ∈ l) as Hin' by (intros x Hx; apply Hin; by right).
  destruct (close1_unwatch s1 p A s2 e2 Hi E) as [(_&->&_)|(w&r&Hw&Hu&_)]; [by eapply (IH Hin' s1)|].
  eapply (IH Hin' s2); [by eapply trg_unwatch_inv| |exact E3]. eapply Hp; [apply Hin; by left|exact Hi|exact HP|exact Hw|exact Hu].
Qed.
Lemma shrinks_loop l s s' es : tinv T s → close_loop T s l = (s', es) → tinv T s' ∧ shrinks s s'.
Proof.
  intros Hi H. eapply (loop_ind (shrinks s)); [|exact Hi|apply shrinks_refl|exact H].
  intros s1 p A s2 w r _ H1 K _ Hu. eapply shrinks_trans; [exact K|]. by eapply shrinks_unwatch.
Qed.
Lemma leak_loop l s s' es : t_fds T = true → Forall registers l.*2 → tinv T s → no_leak s → close_loop T s l = (s', es) → no_leak s'.
Proof.
  intros HT Hl Hi Hn H. eapply (loop_ind no_leak); [|exact Hi|exact Hn|exact H].
  intros s1 p A s2 w r Hin H1 K _ Hu. eapply (kp_leak _ _ _ (keeps_unwatch T HT s1 A p (tw_dir w) s2 r H1 Hu)); [|done].
  rewrite Forall_forall in Hl. apply Hl. apply elem_of_list_fmap. by exists (p, A).
Qed.
Lemma good_loop l s s' es : good s → close_loop T s l = (s', es) → good s'.
Proof.
  intros [Hi Ho] H. eapply (loop_ind owned); [|exact Hi|exact Ho|exact H].
  intros s1 p A s2 w r Hin H1 K _ Hu. by eapply (good_unwatch s1).
Qed.
(** What stays *)
Lemma member_stays q g s A p m s' r : (p ≠ q ∨ m = MDir) → g ≠ 0 → tinv T s → (∃ w, tw_at s q = Some w ∧ tw_eNonDir w = g) → singleunwatch T s A p m = (s', r) →
  ∃ w, tw_at s' q = Some w ∧ tw_eNonDir w = g.
Proof.
  intros Hd Hg Hi (w&Hw&Hm) H. destruct (decide (p = q)) as [->|Hne].
  - destruct Hd as [| ->]; [done|]. pose proof (singleunwatch_result _ _ _ _ _ _ Hi H) as K. rewrite Hw in K.
    destruct K as [[K _]|[K _]]; [by eexists|]. unfold tw_e in K. apply N.lor_eq_0_iff in K as [_ K]. cbn in K. congruence.
  - exists w. split; [|done]. rewrite <-Hw. exact (sa_tw _ _ _ _ (singleunwatch_same T s A p m s' r q Hi H Hne)).
Qed.
Lemma direct_stays q g s A p m s' r : (p ≠ q ∨ m = MNDir) → g ≠ 0 → tinv T s → (∃ w, tw_at s q = Some w ∧ tw_eDir w = g) → singleunwatch T s A p m = (s', r) →
  ∃ w, tw_at s' q = Some w ∧ tw_eDir w = g.
Proof.
  intros Hd Hg Hi (w&Hw&Hm) H. destruct (decide (p = q)) as [->|Hne].
  - destruct Hd as [| ->]; [done|]. pose proof (singleunwatch_result _ _ _ _ _ _ Hi H) as K. rewrite Hw in K.
    destruct K as [[K _]|[K _]]; [by eexists|]. unfold tw_e in K. apply N.lor_eq_0_iff in K as [K _]. cbn in K. congruence.
  - exists w. split; [|done]. rewrite <-Hw. exact (sa_tw _ _ _ _ (singleunwatch_same T s A p m s' r q Hi H Hne)).
Qed.
Lemma member_loop l s s' es q w : tinv T s → tw_at s q = Some w → tw_eNonDir w ≠ 0 → unlisted s l q → close_loop T s l = (s', es) →
  ∃ w', tw_at s' q = Some w' ∧ tw_eNonDir w' = tw_eNonDir w.
Proof.
  intros Hi Hw Hm Hun H. destruct (loop_ind (λ s1, shrinks s s1 ∧ ∃ w', tw_at s1 q = Some w' ∧ tw_eNonDir w' = tw_eNonDir w) l s s' es) as (_&_&K); [|done| |done|done].
  - intros s1 p A s2 x r Hin H1 [Hsh K] Hx Hu. split; [eapply shrinks_trans; [exact Hsh|by eapply shrinks_unwatch]|].
    destruct (sh_at _ _ Hsh p x Hx) as (y&Hy&_&Hd).
    eapply (unwatch_ind (λ s1, ∃ w', tw_at s1 q = Some w' ∧ tw_eNonDir w' = tw_eNonDir w)); [| | |exact H1|exact K|exact Hu].
    + intros s3 fi ls s4 r4 Hdir Hls Hfi H3 K3 E. eapply member_stays; [|exact Hm|exact H3|exact K3|exact E]. left. intros <-.
      eapply (Hun p A y ls); [done|done|congruence|done|]. apply elem_of_list_fmap. by exists fi.
    + intros s3 s4 r4 H3 K3 E. right. eapply member_stays; [by right|exact Hm|exact H3|exact K3|exact E].
    + done.
  - split; [apply shrinks_refl|by exists w].
Qed.
(** A file that is watched directly only, and that the OS lets go *)
Definition only_direct (q : str) (s : tstate) : Prop := ∀ w, tw_at s q = Some w → tw_dir w = false ∧ tw_eNonDir w = 0 ∧ is_Some (reg_at T s q).
Lemma only_direct_step q s A p m s' r : a_unwatch A q = SOk → a_watch A q = SOk → tinv T s → only_direct q s → singleunwatch T s A p m = (s', r) →
  only_direct q s' ∧ (p = q → m = MDir → tw_at s' q = None).
Proof.
  intros HA1 HA2 Hi HP H. destruct (decide (p = q)) as [->|Hne].
  - destruct (ts_path s !! q) as [i|] eqn:Hp.
    + destruct (ti_path _ _ Hi q i Hp) as (w&Hw&Hwp&_). destruct (HP w (tw_at_eq _ _ _ _ Hp Hw)) as (H1&H2&e&He). unfold reg_at in He. rewrite (tw_at_eq _ _ _ _ Hp Hw) in He. cbn [mbind option_bind] in He.
      rewrite (singleunwatch_known T s A q m i w Hi Hp Hw) in H. cbv zeta in H. rewrite HA1, He, HA2 in H.
      destruct (nonzero (tw_e (clear_role m w))) eqn:Hz; apply pair_equal_spec in H as [<- _].
      * assert (tw_at (watched_state T (unreg_state T s i (clear_role m w)) i (clear_role m w) (tw_dir w)) q = Some (clear_role m w)) as Ht by (eapply tw_at_eq; [exact Hp|apply lookup_insert]). split.
        -- intros x Hx. rewrite Ht in Hx. injection Hx as <-. split_and!; [by rewrite clear_role_dir|by destruct m|].
           unfold reg_at. rewrite Ht. cbn [mbind option_bind]. unfold watched_state. cbn -[ident_of]. rewrite lookup_insert. by eexists.
        -- intros _ ->. exfalso. apply nz_iff in Hz. apply Hz. unfold tw_e. cbn. by rewrite H2.
      * assert (tw_at (t_Del T (unreg_state T s i (clear_role m w)) i) q = None) as Ht.
        { unfold t_Del, tw_at. replace (ts_heap (unreg_state T s i (clear_role m w)) !! i) with (Some (clear_role m w)) by (symmetry; apply lookup_insert).
          rewrite clear_role_p, Hwp. destruct (t_fds T); cbn -[ident_of]; by rewrite lookup_delete. }
        split; [|done]. intros x Hx. congruence.
    + unfold singleunwatch in H. rewrite Hp in H. apply pair_equal_spec in H as [<- _]. split; [done|]. intros _ _. unfold tw_at. by rewrite Hp.
  - split; [|done]. pose proof (singleunwatch_same T s A p m s' r q Hi H Hne) as K. intros x Hx. rewrite (sa_tw _ _ _ _ K) in Hx. rewrite (sa_reg _ _ _ _ K). by apply HP.
Qed.
Lemma only_direct_loop q l s s' es : (∀ p A, (p, A) ∈ l → a_unwatch A q = SOk ∧ a_watch A q = SOk) → tinv T s → only_direct q s → q ∈ l.*1 →
  close_loop T s l = (s', es) → tw_at s' q = None.
Proof.
  intros HA. revert s es. induction l as [|[p A] l IH]; intros s es Hi HP Hin H; [by apply elem_of_nil in Hin|]. cbn [close_loop] in H.
  destruct (close1 T s p A) as [s1 e1] eqn:E1. destruct (close_loop T s1 l) as [s2 e2] eqn:E2. apply pair_equal_spec in H as [<- _].
  destruct (HA p A) as [HA1 HA2]; [by left|].
  assert (tinv T s1 ∧ only_direct q s1 ∧ (p = q → tw_at s1 q = None)) as (Hi1&HP1&Hn).
  { destruct (close1_unwatch s p A s1 e1 Hi E1) as [(Hn&->&_)|(w&r&Hw&Hu&_)]; [split_and!; [done|done|by intros ->]|].
    split; [by eapply trg_unwatch_inv|]. destruct (decide (p = q)) as [->|Hne].
    - destruct (HP w Hw) as [Hd _]. rewrite Hd in Hu. unfold trg_unwatch in Hu. destruct (only_direct_step q s A q MDir s1 r HA1 HA2 Hi HP Hu) as [K1 K2]. split; [done|]. intros _. by apply K2.
    - split; [|done]. eapply (unwatch_ind (only_direct q)); [| | |exact Hi|exact HP|exact Hu].
      + intros s3 fi ls s4 r4 _ _ _ H3 K3 E. by eapply only_direct_step in E as [? _].
      + intros s3 s4 r4 H3 K3 E. right. by eapply only_direct_step in E as [? _].
      + done. }
  cbn in Hin. apply elem_of_cons in Hin as [->|Hin]; [|eapply (IH); [|exact Hi1|exact HP1|exact Hin|exact E2]; intros p' A' H'; eapply HA; by right].
  destruct (tw_at s2 p) as [x|] eqn:Hx; [|done]. destruct (shrinks_loop l s1 s2 e2 Hi1 E2) as [_ Sh]. destruct (sh_at _ _ Sh p x Hx) as (y&Hy&_). rewrite Hn in Hy; done.
Qed.
Lemma direct_loop l s s' es d w : tinv T s → tw_at s d = Some w → tw_dir w = true → tw_eDir w ≠ 0 → (∀ A, (d, A) ∈ l → a_ls A d = None) → close_loop T s l = (s', es) →
  ∃ w', tw_at s' d = Some w' ∧ tw_eDir w' = tw_eDir w.
Proof.
  intros Hi Hw Hdir Hm Hun H. destruct (loop_ind (λ s1, shrinks s s1 ∧ ∃ w', tw_at s1 d = Some w' ∧ tw_eDir w' = tw_eDir w) l s s' es) as (_&_&K); [|done| |done|done].
  - intros s1 p A s2 x r Hin H1 [Hsh K] Hx Hu. split; [eapply shrinks_trans; [exact Hsh|by eapply shrinks_unwatch]|].
    destruct (sh_at _ _ Hsh p x Hx) as (y&Hy&_&Hd).
    eapply (unwatch_ind (λ s1, ∃ w', tw_at s1 d = Some w' ∧ tw_eDir w' = tw_eDir w)); [| | |exact H1|exact K|exact Hu].
    + intros s3 fi ls s4 r4 _ Hls Hfi H3 K3 E. eapply direct_stays; [by right|exact Hm|exact H3|exact K3|exact E].
    + intros s3 s4 r4 H3 K3 E. destruct (decide (p = d)) as [->|Hne].
      * left. split; [congruence|by apply Hun].
      * right. eapply direct_stays; [by left|exact Hm|exact H3|exact K3|exact E].
    + done.
  - split; [apply shrinks_refl|by exists w].
Qed.

(** ** Orderly histories *)
Context (ty : str → bool) (strict : bool).
Lemma unwatch_fine A p ls s s' res r : willing A → listing ty A p ls → p ∉ entries p ls → tinv T s → agrees T ty strict r s → is_Some (tw_at s p) →
  trg_unwatch T s A p (ty p) = (s', res) → res = ROk.
Proof.
  intros HA Hls Hp Hi Ha Hw H. unfold trg_unwatch in H. destruct (if ty p then walk s A p (unwatch_entry T A p) else (s, ROk)) as [s1 r1] eqn:E.
  assert (tinv T s1 ∧ r1 = ROk ∧ (∃ r', agrees T ty strict r' s1) ∧ tw_at s1 p = tw_at s p) as (H1&->&[r' Ha1]&Hsame).
  { unfold listing in Hls. destruct (ty p).
    - destruct Hls as [Hls Hty]. unfold walk in E. rewrite Hls in E.
      destruct (walk_unwatch_agrees T ty strict A p ls s s1 r1 r HA Hi Ha E) as [-> Ha1]. split_and!; [|done|by eexists|].
      + eapply walk_fold_inv; [exact Hi| |exact E]. intros. by eapply unwatch_entry_inv.
      + clear - Hp E Hi. revert s E Hi. induction ls as [|fi ls IH]; intros s E Hi; cbn [walk_fold] in E; [by apply pair_equal_spec in E as [<- _]|].
        destruct (unwatch_entry T A p s fi) as [s2 r2] eqn:E2. assert (tinv T s2) as H2 by (by eapply unwatch_entry_inv).
        apply not_elem_of_cons in Hp as [Hne Hp]. assert (tw_at s2 p = tw_at s p) as Hs.
        { unfold unwatch_entry in E2. destruct (singleunwatch T s A (join p (fi_name fi)) MNDir) as [s3 r3] eqn:E3. apply pair_equal_spec in E2 as [<- _].
          exact (sa_tw _ _ _ _ (singleunwatch_same T s A _ _ s3 r3 p Hi E3 (not_eq_sym Hne))). }
        destruct r2; [rewrite <-Hs; by apply IH|apply pair_equal_spec in E as [_ E]; discriminate E..].
    - subst ls. apply pair_equal_spec in E as [<- <-]. split_and!; [done|done|by eexists|done]. }
  destruct (agree_del T ty strict s1 A p MDir s' res _ _ HA H1 (Ha1 p) H) as [-> _]. rewrite Hsame. by rewrite decide_True.
Qed.
Lemma orderly_loop ls l r s s' es : orderly T ty strict r s → Forall willing l.*2 → (∀ p A, (p, A) ∈ l → listing ty A p (ls p)) → (∀ p, p ∉ entries p (ls p)) →
  close_loop T s l = (s', es) →
  es = [] ∧ ∃ r', orderly T ty strict r' s' ∧ (∀ q, direct r' q ≠ 0 → direct r q ≠ 0 ∧ q ∉ l.*1) ∧
    (∀ q, member r' q ≠ 0 → member r q ≠ 0 ∧ ∀ d, d ∈ l.*1 → direct r d ≠ 0 → q ∉ entries d (ls d)).
Proof.
  intros Ho HA Hls Hself. revert r s es Ho. induction l as [|[p A] l IH]; intros r s es Ho H; cbn [close_loop] in H.
  - apply pair_equal_spec in H as [<- <-]. split; [done|]. exists r. split_and!; [done|..]; intros q Hq; (split; [done|]); [by intros ?%elem_of_nil|by intros d ?%elem_of_nil].
  - apply Forall_cons_1 in HA as [HA HAs]. cbn in HA. destruct (close1 T s p A) as [s2 e2] eqn:E. destruct (close_loop T s2 l) as [s3 e3] eqn:E3. apply pair_equal_spec in H as [<- <-].
    assert (∀ p A, (p, A) ∈ l → listing ty A p (ls p)) as Hls' by (intros q B HB; apply Hls; by right).
    destruct (orderly_agrees T ty strict r s Ho) as [Hi Ha]. pose proof (Ha p) as Hap. unfold agree_at in Hap.
    destruct (close1_unwatch s p A s2 e2 Hi E) as [(Hw&->&->)|(w&res&Hw&Hu&->)]; rewrite Hw in Hap.
    + destruct Hap as [Hz _]. destruct (IH HAs Hls' r s e3 Ho E3) as (->&r'&Ho'&D&M). split; [done|]. exists r'. split_and!; [done|..].
      * intros q Hq. destruct (D q Hq) as [D1 D2]. split; [done|]. apply not_elem_of_cons. split; [|done]. cbn. intros ->. done.
      * intros q Hq. destruct (M q Hq) as [M1 M2]. split; [done|]. intros d [->|Hd]%elem_of_cons Hdr; [cbn in Hdr; done|by apply M2].
    + destruct Hap as (_&_&_&Hd&_). rewrite Hd in Hu.
      assert (listing ty A p (ls p)) as Hl by (apply Hls; by left).
      pose proof (unwatch_fine A p (ls p) s s2 res r HA Hl (Hself p) Hi Ha ltac:(by eexists) Hu) as ->. rewrite decide_True by done.
      assert (orderly T ty strict (role_unwatch r p (ls p)) s2) as Ho2 by (eapply (ord_unwatch T ty strict r s A p (ls p) ROk s2); [done..|by constructor]).
      destruct (IH HAs Hls' _ s2 e3 Ho2 E3) as (->&r'&Ho'&D&M). split; [done|]. exists r'. split; [done|]. cbn [role_unwatch direct member] in D, M. split.
      * intros q Hq. destruct (D q Hq) as [D1 D2]. unfold clr in D1. destruct (decide (q ∈ [p])) as [|Hn]; [done|]. split; [done|]. apply not_elem_of_cons. split; [|done]. cbn. intros ->. apply Hn. by left.
      * intros q Hq. destruct (M q Hq) as [M1 M2]. unfold clr in M1. destruct (decide (q ∈ entries p (ls p))) as [|Hn]; [done|]. split; [done|].
        intros d Hin Hdr. destruct (decide (d = p)) as [->|Hne]; [done|]. apply elem_of_cons in Hin as [Hin|Hin]; [done|]. apply M2; [done|].
        unfold clr. rewrite decide_False; [done|]. intros ?%elem_of_list_singleton. done.
Qed.
Lemma orderly_texec r s : orderly T ty strict r s → ∃ tr, texec T tr s ∧ Forall registers_l tr.
Proof.
  assert (∀ l tr s s', texec T tr s → Forall registers_l tr → label_ok l → registers_l l → tstep T s l s' → ∃ tr, texec T tr s' ∧ Forall registers_l tr) as K.
  { intros l tr s1 s2 H1 H2 H3 H4 H5. exists (tr ++ [l]). split; [by eapply texec_step|]. apply Forall_app. split; [done|]. apply Forall_cons_2; [done|apply Forall_nil_2]. }
  assert (∀ A, willing A → fresh_fd A ∧ registers A) as W. { intros A HA. split; [apply (wl_fd _ HA)|intros p; apply (wl_watch _ HA)]. }
  induction 1 as [|r s A p e ls res s' Ho (tr&IH1&IH2) HA He Hls Hs|r s A p ls res s' Ho (tr&IH1&IH2) HA Hls Hs|r s A A' p e ls ls' res s' Ho (tr&IH1&IH2) HA HA' He Hls Hls' Hd Hs
    |r s st A ord k ge evn s' Ho (tr&IH1&IH2) HA Hk Hs|r s st A ord p w ge evn s' Ho (tr&IH1&IH2) HA Hat Hg Hn Hs|r s A ord p w ls ge evn s' Ho (tr&IH1&IH2) HA Hat Hg Hst Hls Hs].
  1: { exists []. split; [constructor|apply Forall_nil_2]. }
  all: eapply K; [exact IH1|exact IH2| | |exact Hs]; cbn; first [by apply W|split; by apply W].
Qed.
Lemma texec_leak tr s : t_fds T = true → texec T tr s → Forall registers_l tr → no_leak s.
Proof.
  intros HT H HF. induction H as [|tr s l s' H IH Hl Hs]; [by intros fd ?%elem_of_empty|]. apply Forall_app in HF as [HF Hr]. apply Forall_cons_1 in Hr as [Hr _].
  apply texec_inv in H as Hi. destruct (step_fds T HT s l s' Hi Hl Hs) as [_ K]. apply K; [exact Hr|exact (IH HF)].
Qed.
Lemma nothing_open s : t_fds T = true → tinv T s → no_leak s → nothing s → ts_open s = ∅.
Proof.
  intros HT Hi Hl Hn. apply set_eq. intros fd. split; [|by intros ?%elem_of_empty]. intros Hfd. destruct (Hl fd Hfd) as [i H]. destruct (ti_id _ _ Hi _ _ H) as (_&w&Hw&_&Hp).
  pose proof (tw_at_eq _ _ _ _ Hp Hw) as K. by rewrite Hn in K.
Qed.
Lemma nothing_path s : tinv T s → nothing s ↔ ts_path s = ∅.
Proof.
  intros Hi. split; [|intros E p; unfold tw_at; by rewrite E, lookup_empty]. intros Hn. apply map_empty. intros p. apply (tw_at_None T); [done|apply Hn].
Qed.
End facts.
