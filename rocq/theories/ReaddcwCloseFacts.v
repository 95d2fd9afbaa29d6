(** * ReaddcwCloseFacts: invariants around a call of Close of the Windows watcher *)
From Verif Require Import Base Event Watchpoint WatchpointFacts Readdcw SpecReaddcw ReaddcwFacts ReaddcwLoop ReaddcwRun ReaddcwLife
  ReaddcwClose SpecReaddcwClose.
Local Open Scope N_scope.
Notation mach x := (w_filter x .& onlyMachineStates).

(** ** Closing handles, whatever the loop is doing *)
Lemma close_grip_gen s g :
  same_but_io s (close_grip s g) ∧
  (∀ h, rs_grips (close_grip s g) !! h = if decide (h = g) then shut <$> rs_grips s !! h else rs_grips s !! h).
Proof.
  unfold close_grip. destruct (rs_grips s !! g) as [gr|] eqn:Hg; [destruct (g_open gr) eqn:Ho|].
  - split; [done|]. intros h. unfold set_io, set_grip. cbn [rs_grips]. destruct (decide (h = g)) as [->|]; [by rewrite lookup_insert, Hg|by rewrite lookup_insert_ne].
  - split; [done|]. intros h. destruct (decide (h = g)) as [->|]; [|done]. rewrite Hg. cbn. f_equal. destruct gr. cbn in *. by subst.
  - split; [done|]. intros h. destruct (decide (h = g)) as [->|]; [|done]. by rewrite Hg.
Qed.
Lemma closeHandle_gen s x :
  same_but_io s (closeHandle s x) ∧
  (∀ h, rs_grips (closeHandle s x) !! h = if decide (h ∈ grips_of x) then shut <$> rs_grips s !! h else rs_grips s !! h).
Proof.
  unfold closeHandle. revert s. induction (grips_of x) as [|g l IH]; intros s; cbn [foldl]; [done|].
  destruct (close_grip_gen s g) as [S1 G1]. destruct (IH (close_grip s g)) as [S2 G2].
  split; [by eapply same_but_io_trans|]. intros h. rewrite G2, G1. destruct (decide (h = g)) as [->|Hne].
  - rewrite (decide_True (P := g ∈ g :: l)) by (by left). destruct (decide (g ∈ l)); [|done]. by destruct (rs_grips s !! g).
  - destruct (decide (h ∈ l)) as [Hl|Hl]; [rewrite decide_True by (by right)|rewrite decide_False by (by intros [?|?]%elem_of_cons)]; done.
Qed.
Definition cpclose (x : watched) : watched := with_filter x ((w_filter x .&^ onlyMachineStates) .| stateCPClose).
Lemma cpclose_mach x : mach (cpclose x) = stateCPClose.
Proof.
  cbn [cpclose w_filter with_filter]. apply has_ext. intros i. rewrite has_land, has_lor, has_ldiff.
  assert (incl_ev stateCPClose onlyMachineStates) as K by (apply land_eq_incl; by vm_compute). specialize (K i). split.
  - intros [[[_ H1]|H1] H2]; [exact (False_ind _ (H1 H2))|exact H1].
  - intros H. split; [right; exact H|exact (K H)].
Qed.
Lemma close_entry_spec s i x : rs_wds s !! i = Some x →
  let s' := close_entry s i in
  rs_tab s' = rs_tab s ∧ rs_wds s' = <[i := cpclose x]> (rs_wds s) ∧ rs_next s' = rs_next s ∧ rs_pc s' = rs_pc s ∧ rs_sent s' = rs_sent s ∧ rs_panic s' = rs_panic s ∧
  (∀ h, rs_grips s' !! h = if decide (h ∈ grips_of x) then shut <$> rs_grips s !! h else rs_grips s !! h).
Proof.
  intros Hx. cbn zeta. unfold close_entry. rewrite Hx. fold (cpclose x).
  destruct (closeHandle_gen (set_wd s i (cpclose x)) (cpclose x)) as [[A1 A2 A3 A4 A5 A6] G]. split_and!; done.
Qed.
(** The whole loop. *)
Lemma close_entries_spec l : ∀ s,
  let s' := close_entries s l in
  rs_tab s' = rs_tab s ∧ rs_next s' = rs_next s ∧ rs_pc s' = rs_pc s ∧ rs_sent s' = rs_sent s ∧ rs_panic s' = rs_panic s ∧
  (∀ j, j ∉ l → rs_wds s' !! j = rs_wds s !! j) ∧
  (∀ j x, j ∈ l → rs_wds s !! j = Some x → ∃ x', rs_wds s' !! j = Some x' ∧ mach x' = stateCPClose ∧ w_path x' = w_path x ∧ grips_of x' = grips_of x) ∧
  (∀ h gr, rs_grips s !! h = Some gr → ∃ gr', rs_grips s' !! h = Some gr' ∧ (gr' = gr ∨ gr' = shut gr)) ∧
  (∀ h gr', rs_grips s' !! h = Some gr' → ∃ gr, rs_grips s !! h = Some gr ∧ (gr' = gr ∨ gr' = shut gr)) ∧
  (∀ j x g gr', j ∈ l → rs_wds s !! j = Some x → g ∈ grips_of x → rs_grips s' !! g = Some gr' → g_open gr' = false).
Proof.
  induction l as [|i l IH]; intros s; cbn zeta.
  { cbn [close_entries foldl]. split_and!; try done; [by intros ?? ?%elem_of_nil|by eauto|by eauto|by intros ??? ? ?%elem_of_nil]. }
  change (close_entries s (i :: l)) with (close_entries (close_entry s i) l).
  destruct (rs_wds s !! i) as [x|] eqn:Hx.
  2: { assert (close_entry s i = s) as -> by (unfold close_entry; by rewrite Hx).
    destruct (IH s) as (K1&K2&K3&K4&K5&K6&K7&K8&K9&K10). split_and!; try done.
    - intros j [_ H]%not_elem_of_cons. by apply K6.
    - intros j y [->|H]%elem_of_cons Hy; [congruence|by eapply K7].
    - intros j y g gr' [->|H]%elem_of_cons Hy; [congruence|by eapply K10]. }
  destruct (close_entry_spec s i x Hx) as (E1&E2&E3&E4&E5&E6&E7). set (s1 := close_entry s i) in *.
  destruct (IH s1) as (K1&K2&K3&K4&K5&K6&K7&K8&K9&K10). split_and!; try congruence.
  - intros j [Hn H]%not_elem_of_cons. rewrite K6, E2 by done. by rewrite lookup_insert_ne.
  - intros j y Hj Hy. destruct (decide (j = i)) as [->|Hne].
    + rewrite Hx in Hy. injection Hy as <-. assert (rs_wds s1 !! i = Some (cpclose x)) as H1 by (rewrite E2; apply lookup_insert).
      destruct (decide (i ∈ l)) as [Hl|Hl]; [exact (K7 i (cpclose x) Hl H1)|].
      exists (cpclose x). rewrite K6 by done. split_and!; [done|apply cpclose_mach|done|done].
    + apply elem_of_cons in Hj as [?|Hj]; [done|]. apply K7; [done|]. rewrite E2. by rewrite lookup_insert_ne.
  - intros h gr Hh. destruct (K8 h (if decide (h ∈ grips_of x) then shut gr else gr)) as (gr'&G1&G2).
    { rewrite E7, Hh. by destruct (decide (h ∈ grips_of x)). }
    exists gr'. split; [done|]. destruct (decide (h ∈ grips_of x)); destruct G2 as [->| ->]; auto.
  - intros h gr' Hh. destruct (K9 h gr' Hh) as (gr1&G1&G2). rewrite E7 in G1. destruct (decide (h ∈ grips_of x)).
    + apply fmap_Some in G1 as (gr&G1&->). exists gr. split; [done|]. right. by destruct G2 as [->| ->].
    + eauto.
  - intros j y g gr' Hj Hy Hg Hgr. destruct (decide (j = i)) as [->|Hne].
    + rewrite Hx in Hy. injection Hy as <-. destruct (K9 g gr' Hgr) as (gr1&G1&G2). rewrite E7, decide_True in G1 by done.
      apply fmap_Some in G1 as (gr&_&->). by destruct G2 as [->| ->].
    + apply elem_of_cons in Hj as [?|Hj]; [done|]. apply (K10 j y g gr' Hj); [|done|done]. rewrite E2. by rewrite lookup_insert_ne.
Qed.
Lemma close_entry_open s i : reads_open s → reads_open (close_entry s i).
Proof. intros H. unfold close_entry. destruct (rs_wds s !! i); [|done]. apply reads_open_close. by eapply reads_open_same. Qed.
Lemma close_entries_open l : ∀ s, reads_open s → reads_open (close_entries s l).
Proof. induction l as [|i l IH]; intros s H; [done|]. by apply IH, close_entry_open. Qed.
Lemma order_tab s order i : order ≡ₚ (map_to_list (rs_tab s)).*2 → i ∈ order ↔ ∃ p, rs_tab s !! p = Some i.
Proof.
  intros H. rewrite H, elem_of_list_fmap. split.
  - intros ([p j]&->&Hp%elem_of_map_to_list). eauto.
  - intros (p&Hp). exists (p, i). split; [done|]. by apply elem_of_map_to_list.
Qed.

(** ** From Close until the next Watch, after an orderly history *)
Record quiet (s : rstate) : Prop := {
  qu_panic : rs_panic s = false;
  qu_shut : ∀ g gr, rs_grips s !! g = Some gr → g_open gr = false;
  qu_reads : rs_reads s = [];
  qu_tab : ∀ p i, rs_tab s !! p = Some i → ∃ x, rs_wds s !! i = Some x ∧ mach x = stateCPClose;
  qu_wds : ∀ i x, rs_wds s !! i = Some x → mach x = stateCPClose ∨ mach x = stateUnwatch;
}.
Lemma quiet_close tr s order : rdorderly tr s → order ≡ₚ (map_to_list (rs_tab s)).*2 → quiet (close_entries s order).
Proof.
  intros Ho Hord. pose proof (rdorderly_inv _ _ Ho) as J. pose proof (rdorderly_open _ _ Ho) as Hop.
  destruct (close_entries_spec order s) as (K1&K2&K3&K4&K5&K6&K7&K8&K9&K10). set (s' := close_entries s order) in *.
  assert (∀ g gr, rs_grips s' !! g = Some gr → g_open gr = false) as Hshut.
  { intros g gr' Hg. destruct (K9 g gr' Hg) as (gr&G1&G2). destruct (ri_gr _ _ J g gr G1) as (x&Hx&Hno).
    destruct (decide (g ∈ grips_of x)) as [Hin|Hin].
    - destruct (decide (g_parent gr ∈ order)) as [Hp|Hp]; [by apply (K10 (g_parent gr) x g gr' Hp)|].
      destruct (ri_dead _ _ J (g_parent gr) x Hx) as (e&k&_&_&Hc&_).
      { intros Ht. apply Hp. apply (order_tab s order (g_parent gr) Hord). eauto. }
      specialize (Hc g Hin). unfold closed in Hc. rewrite G1 in Hc. apply negb_true_iff in Hc. by destruct G2 as [->| ->].
    - destruct (Hno Hin) as [Hc _]. by destruct G2 as [->| ->]. }
  split.
  - rewrite K5. apply J.
  - done.
  - pose proof (close_entries_open order s Hop) as H. fold s' in H. destruct (rs_reads s') as [|r l] eqn:E; [done|]. exfalso.
    assert (closed s' (r_grip r) = false) as Hr by (apply H; rewrite E; by left). unfold closed in Hr.
    destruct (rs_grips s' !! r_grip r) as [gr|] eqn:Hg; [|done]. by rewrite (Hshut _ _ Hg) in Hr.
  - intros p i Hp. rewrite K1 in Hp. destruct (ri_tab _ _ J p i Hp) as (x&Hx&_).
    destruct (K7 i x) as (x'&H1&H2&_); [apply (order_tab s order i Hord); eauto|done|]. eauto.
  - intros i x' Hx'. destruct (decide (i ∈ order)) as [Hi|Hi].
    + apply (order_tab s order i Hord) in Hi as Hi'. destruct Hi' as (p&Hp). destruct (ri_tab _ _ J p i Hp) as (x&Hx&_).
      destruct (K7 i x Hi Hx) as (x''&H1&H2&_). rewrite Hx' in H1. injection H1 as <-. by left.
    + rewrite K6 in Hx' by done. right. destruct (ri_dead _ _ J i x' Hx') as (e&k&He&HF&_).
      { intros Ht. apply Hi. apply (order_tab s order i Hord). eauto. }
      rewrite HF. apply mach_state; [done|]. apply land_eq_incl. by vm_compute.
Qed.
Lemma quiet_refused s p : quiet s → nonState s p = None.
Proof.
  intros Q. unfold nonState. destruct (rs_tab s !! p) as [i|] eqn:Hp; [|done]. destruct (qu_tab _ Q p i Hp) as (x&Hx&Hm). rewrite Hx, Hm. done.
Qed.
Definition steps_left (s : rstate) : nat := (3 * length (rs_queue s) + match rs_pc s with PWait => 0 | PRead _ => 2 | PState _ => 1 end)%nat.
Definition req_label (l : rlabel) : bool := match l with LReq _ _ _ _ => true | _ => false end.
(** Nothing is opened again, and the loop has a bounded number of things to do. *)
Lemma quiet_step s l s' : quiet s → rdstep s l s' → inits s l = false →
  quiet s' ∧ if req_label l then rs_queue s' = rs_queue s ∧ rs_pc s' = rs_pc s ∧ rs_tab s' = rs_tab s else (steps_left s' < steps_left s)%nat.
Proof.
  intros Q Hs Hi. destruct Hs as [q ok0 ok1 s' r Hq|g l l1 x l2 Hr Hg|g l l1 l2 gr wd Hpc Hq Hg Hw|g ok Hpc|g ok0 ok1 Hpc]; cbn [req_label].
  - assert (s' = s ∨ ∃ p i x, rs_tab s !! p = Some i ∧ rs_wds s !! i = Some x ∧ s' = set_wd s i (with_filter x (w_filter x .&^ stateUnwatch))) as Hc.
    { destruct q as [p e k|p old new k|p]; cbn [rd_request inits] in Hq, Hi.
      - unfold rd_watch in Hq. destruct (e .&^ known_events =? 0); cbn [negb andb] in Hq, Hi; [|left; by injection Hq as <- <-].
        destruct (rs_tab s !! p) as [i|] eqn:Ht; [|done]. destruct (qu_tab _ Q p i Ht) as (x&Hx&Hm). rewrite Hx in Hq. apply pair_equal_spec in Hq as [<- _].
        right. exists p, i, x. done.
      - unfold rd_rewatch in Hq. rewrite (quiet_refused s p Q) in Hq. left. destruct (nonzero _); by injection Hq as <- <-.
      - unfold rd_unwatch in Hq. rewrite (quiet_refused s p Q) in Hq. left. by injection Hq as <- <-. }
    destruct Hc as [->|(p&i&x&Ht&Hx&->)]; [done|]. split; [|done].
    assert (mach x = stateCPClose) as Hm. { destruct (qu_tab _ Q p i Ht) as (y&Hy&Hm). rewrite Hx in Hy. by injection Hy as <-. }
    assert (mach (with_filter x (w_filter x .&^ stateUnwatch)) = stateCPClose) as Hm'.
    { cbn [w_filter with_filter]. rewrite <-Hm. apply has_ext. intros k. rewrite !has_land, has_ldiff. split; [intros [[H1 _] H2]; exact (conj H1 H2)|]. intros [H1 H2]. split; [|exact H2]. split; [exact H1|].
      assert (has stateCPClose k) as H3 by (rewrite <-Hm; apply has_land; exact (conj H1 H2)). clear - H3. intros H4.
      assert (disj_ev stateCPClose stateUnwatch) as K by (apply land_zero_disj; by vm_compute). exact (K k H3 H4). }
    destruct Q as [Q1 Q2 Q3 Q4 Q5]. split; cbn [rs_panic rs_grips rs_reads rs_tab rs_wds set_wd]; try done.
    + intros p' j Hj. destruct (decide (j = i)) as [->|Hne]; [rewrite lookup_insert; eauto|rewrite lookup_insert_ne by done; eauto].
    + intros j y. destruct (decide (j = i)) as [->|Hne]; [rewrite lookup_insert; intros [= <-]; by left|rewrite lookup_insert_ne by done; apply Q5].
  - exfalso. rewrite (qu_reads _ Q) in Hr. by destruct l1.
  - split; [by destruct Q|]. unfold steps_left. cbn [rs_queue rs_pc set_pc set_sent set_io]. rewrite Hpc, Hq, !app_length. cbn [length]. lia.
  - assert (readDirChanges s ok g = s) as ->.
    { unfold readDirChanges. destruct (rs_grips s !! g) as [gr|] eqn:Hg; [|done]. by rewrite (qu_shut _ Q g gr Hg). }
    split; [by destruct Q|]. unfold steps_left. cbn [rs_queue rs_pc set_pc]. rewrite Hpc. lia.
  - assert (quiet (set_pc s PWait)) as Q0 by (by destruct Q). unfold loopstate. change (rs_grips (set_pc s PWait)) with (rs_grips s).
    assert (steps_left (set_pc s PWait) < steps_left s)%nat as Hl by (unfold steps_left; cbn [rs_queue rs_pc set_pc]; rewrite Hpc; lia).
    destruct (rs_grips s !! g) as [gr|] eqn:Hg; [|done]. change (rs_wds (set_pc s PWait)) with (rs_wds s). destruct (rs_wds s !! g_parent gr) as [x|] eqn:Hx; [|done].
    destruct (mach x =? 0) eqn:Hz; [done|].
    set (x' := with_count x (dec8 (w_count x))). assert (quiet (set_wd (set_pc s PWait) (g_parent gr) x')) as Q1.
    { destruct Q as [Q1 Q2 Q3 Q4 Q5]. split; cbn [rs_panic rs_grips rs_reads rs_tab rs_wds set_wd set_pc]; try done.
      - intros p j Hj. destruct (Q4 p j Hj) as (y&Y1&Y2). destruct (decide (j = g_parent gr)) as [->|Hne]; [rewrite lookup_insert|rewrite lookup_insert_ne by done; eauto].
        exists x'. split; [done|]. rewrite Hx in Y1. by injection Y1 as <-.
      - intros j y. destruct (decide (j = g_parent gr)) as [->|Hne]; [rewrite lookup_insert; intros [= <-]; exact (Q5 _ _ Hx)|rewrite lookup_insert_ne by done; apply Q5]. }
    change (steps_left (set_pc s PWait)) with (steps_left (set_wd (set_pc s PWait) (g_parent gr) x')) in Hl.
    destruct (w_count x' =? 0); [|done].
    destruct (qu_wds _ Q _ _ Hx) as [Hm|Hm]; rewrite Hm; cbn [N.eqb stateCPClose stateUnwatch stateRewatch].
    + change (stateCPClose =? stateRewatch) with false. change (stateCPClose =? stateUnwatch) with false. change (stateCPClose =? stateCPClose) with true. done.
    + change (stateUnwatch =? stateRewatch) with false. change (stateUnwatch =? stateUnwatch) with true. cbv iota.
      set (s1 := set_wd (set_pc s PWait) (g_parent gr) x') in *.
      assert (closeHandle s1 x' = s1) as ->.
      { unfold closeHandle. clear - Q1. induction (grips_of x') as [|h l IH]; [done|]. cbn [foldl]. assert (close_grip s1 h = s1) as ->; [|done].
        unfold close_grip. destruct (rs_grips s1 !! h) as [gh|] eqn:E; [|done]. by rewrite (qu_shut _ Q1 h gh E). }
      split; [|exact Hl]. destruct Q1 as [Q1 Q2 Q3 Q4 Q5]. split; cbn [rs_panic rs_grips rs_reads rs_tab rs_wds set_tab]; try done.
      intros p j [_ Hj]%lookup_delete_Some. by apply (Q4 p j).
Qed.

(** ** The executions around the loop *)
Fixpoint rlabels (tr : list clabel) : list rlabel :=
  match tr with [] => [] | KStep l :: tr => l :: rlabels tr | _ :: tr => rlabels tr end.
Lemma rlabels_app t1 t2 : rlabels (t1 ++ t2) = rlabels t1 ++ rlabels t2.
Proof. induction t1 as [|l t1 IH]; [done|]. destruct l; cbn [rlabels app]; by rewrite IH. Qed.
Lemma close_entry_ask tr s i : askinv tr s → askinv tr (close_entry s i).
Proof.
  intros A. unfold close_entry. destruct (rs_wds s !! i) as [x|] eqn:Hx; [|done]. apply ask_close, ask_wd; [done| |by apply (ai_wn _ _ A i x)| |].
  - cbn [w_path w_filter with_filter]. apply good_set_more; [apply good_clear; [exact (ai_wd _ _ A i x Hx)|intros k Hk; exact Hk]|]. apply land_eq_incl. by vm_compute.
  - intros x0. rewrite Hx. by intros [= <-].
  - intros g Hg. by apply (ai_own _ _ A i x).
Qed.
Lemma close_entries_ask tr l : ∀ s, askinv tr s → askinv tr (close_entries s l).
Proof. induction l as [|i l IH]; intros s A; [done|]. by apply IH, close_entry_ask. Qed.
Lemma cstep_ask tr s l s' : askinv (rlabels tr) (c_rs s) → cstep s l s' → askinv (rlabels (tr ++ [l])) (c_rs s').
Proof.
  intros A Hs. rewrite rlabels_app. destruct Hs; cbn [rlabels c_rs]; rewrite ?app_nil_r; try done.
  - by eapply rdstep_ask.
  - by apply close_entries_ask.
  - apply ask_io; [done|]. by intros x ?%elem_of_nil.
Qed.
Lemma csteps_ask tr1 s tr s' : askinv (rlabels tr1) (c_rs s) → csteps s tr s' → askinv (rlabels (tr1 ++ tr)) (c_rs s').
Proof.
  intros A Hs. induction Hs as [s|s tr s1 l s2 Hs IH Hl]; [by rewrite app_nil_r|]. rewrite app_assoc. eapply cstep_ask; [|done]. by apply IH.
Qed.
Lemma cexec_ask tr s : cexec tr s → askinv (rlabels tr) (c_rs s).
Proof. intros H. apply (csteps_ask [] cs_init tr s); [apply askinv_init|done]. Qed.
Lemma csteps_app s t1 s1 t2 s2 : csteps s t1 s1 → csteps s1 t2 s2 → csteps s (t1 ++ t2) s2.
Proof.
  intros H1 H2. induction H2 as [s1|s1 tr s2 l s3 H2 IH Hl]; [by rewrite app_nil_r|]. rewrite app_assoc. econstructor; [by apply IH|done].
Qed.
Lemma csteps_one s l s' : cstep s l s' → csteps s [l] s'.
Proof. intros H. apply (csteps_snoc s [] s l s'); [constructor|done]. Qed.
(** The loop runs whenever the watcher counts as started, and until Close has posted. *)
Record started (s : cstate) : Prop := {
  sd_start : c_start s = true → c_port s = true ∧ c_keys s = 0%nat;
  sd_port : c_port s = false → c_keys s = 0%nat;
  sd_post : ∀ e, c_closer s = KPost e → c_start s = false ∧ c_port s = true ∧ c_keys s = 0%nat;
}.
Lemma cstep_started s l s' : started s → cstep s l s' → started s'.
Proof.
  intros [A B C] Hs. destruct Hs as [l r Hp Hr Hl|p e k Hi Hc|Hc Hst|order err Hc Hst Ho|err Hc Hp|err Hc|n m Hp Hpc Hk Hw|err Hc Hw]; cbn zeta; try done.
  - set (new := inits (c_rs s) l && negb (c_port s)). assert (new = true → c_port s = false) as Hn.
    { unfold new. intros [_ H]%andb_prop. by apply negb_true_iff in H. }
    split; cbn [c_start c_port c_keys c_closer].
    + intros [H|H]%orb_prop; [destruct (A H) as [-> ->]; done|]. rewrite H, (B (Hn H)). by rewrite orb_true_r.
    + intros [H _]%orb_false_iff. by apply B.
    + intros e He. destruct (C e He) as (H1&H2&H3). rewrite H1, H2, H3. destruct new; [|done]. exfalso. specialize (Hn eq_refl). congruence.
  - destruct (A Hst) as [H1 H2]. split; cbn [c_start c_port c_keys c_closer]; [done|congruence|done].
  - destruct (C _ Hc) as (H1&H2&H3). split; cbn [c_start c_port c_keys c_closer]; [congruence|congruence|done].
  - destruct (C _ Hc) as (H1&H2&H3). split; cbn [c_start c_port c_keys c_closer]; [congruence|congruence|by destruct err].
  - split; cbn [c_start c_port c_keys c_closer].
    + intros H. destruct (A H). congruence.
    + done.
    + intros e He. destruct (C _ He) as (_&_&?). congruence.
Qed.
Lemma csteps_started s tr s' : started s → csteps s tr s' → started s'.
Proof. intros A Hs. induction Hs as [s|s tr s1 l s2 Hs IH Hl]; [done|]. eapply cstep_started; [|done]. by apply IH. Qed.
Lemma cexec_started tr s : cexec tr s → started s.
Proof. apply csteps_started. by split. Qed.
Lemma csteps_last s tr l s' : csteps s (tr ++ [l]) s' → ∃ s1, csteps s tr s1 ∧ cstep s1 l s'.
Proof.
  intros H. remember (tr ++ [l]) as t eqn:E. destruct H as [s|s t s1 l' s2 H1 H2]; [by destruct tr|].
  apply app_inj_tail in E as [-> ->]. eauto.
Qed.
Lemma csteps_nil_inv s s' : csteps s [] s' → s' = s.
Proof. intros H. remember [] as t eqn:E. destruct H as [s|s t s1 l' s2 H1 H2]; [done|]. by destruct t. Qed.
(** Histories without Close. *)
Lemma cexec_before tr : ∀ s, cexec (KStep <$> tr) s → c_closer s = KNone ∧ c_wg s = 0%nat.
Proof.
  induction tr as [|l tr IH] using rev_ind; intros s H.
  - apply csteps_nil_inv in H as ->. done.
  - rewrite fmap_app in H. apply csteps_last in H as (s1&H1&H2). apply IH in H1 as [K1 K2]. remember (KStep l) as l' eqn:E.
    destruct H2; try done; discriminate E.
Qed.

(** ** When Close has returned *)
Lemma no_watch_inits s l : is_watch (KStep l) = false → inits s l = false.
Proof. by destruct l as [[]| | | |]. Qed.
(** As long as the loop runs the wait group holds Close back; without the loop nothing is
    outstanding. *)
Record closing (s : cstate) : Prop := {
  cg_start : c_start s = false;
  cg_wait : c_port s = true → ∀ e, c_closer s = KWait e → (1 ≤ c_wg s)%nat;
  cg_none : c_port s = false → rs_reads (c_rs s) = [] ∧ rs_queue (c_rs s) = [] ∧ rs_pc (c_rs s) = PWait;
  cg_tab : ∀ p i, rs_tab (c_rs s) !! p = Some i → ∃ x, rs_wds (c_rs s) !! i = Some x ∧ mach x = stateCPClose;
}.
Lemma tab_refused s p : (∀ p i, rs_tab s !! p = Some i → ∃ x, rs_wds s !! i = Some x ∧ mach x = stateCPClose) → nonState s p = None.
Proof. intros Q. unfold nonState. destruct (rs_tab s !! p) as [i|] eqn:Hp; [|done]. destruct (Q p i Hp) as (x&Hx&Hm). by rewrite Hx, Hm. Qed.
Lemma clear_unwatch x : mach x = stateCPClose → mach (with_filter x (w_filter x .&^ stateUnwatch)) = stateCPClose.
Proof.
  intros Hm. cbn [w_filter with_filter]. rewrite <-Hm. apply has_ext. intros k. rewrite !has_land, has_ldiff.
  split; [intros [[H1 _] H2]; exact (conj H1 H2)|]. intros [H1 H2]. split; [|exact H2]. split; [exact H1|].
  assert (has stateCPClose k) as H3 by (rewrite <-Hm; apply has_land; exact (conj H1 H2)). clear - H3. intros H4.
  assert (disj_ev stateCPClose stateUnwatch) as K by (apply land_zero_disj; by vm_compute). exact (K k H3 H4).
Qed.
(** A request that does not add an entry, while all entries are being closed. *)
Lemma closing_request s q ok0 ok1 s' r :
  (∀ p i, rs_tab s !! p = Some i → ∃ x, rs_wds s !! i = Some x ∧ mach x = stateCPClose) →
  rd_request s q ok0 ok1 = (s', r) → inits s (LReq q ok0 ok1 r) = false →
  s' = s ∨ ∃ p i x, rs_tab s !! p = Some i ∧ rs_wds s !! i = Some x ∧ s' = set_wd s i (with_filter x (w_filter x .&^ stateUnwatch)).
Proof.
  intros Q Hq Hi. destruct q as [p e k|p old new k|p]; cbn [rd_request inits] in Hq, Hi.
  - unfold rd_watch in Hq. destruct (e .&^ known_events =? 0); cbn [negb andb] in Hq, Hi; [|left; by injection Hq as <- <-].
    destruct (rs_tab s !! p) as [i|] eqn:Ht; [|done]. destruct (Q p i Ht) as (x&Hx&Hm). rewrite Hx in Hq. apply pair_equal_spec in Hq as [<- _].
    right. exists p, i, x. done.
  - unfold rd_rewatch in Hq. rewrite (tab_refused s p Q) in Hq. left. destruct (nonzero _); by injection Hq as <- <-.
  - unfold rd_unwatch in Hq. rewrite (tab_refused s p Q) in Hq. left. by injection Hq as <- <-.
Qed.
Lemma closing_tab s l s' : (∀ p i, rs_tab s !! p = Some i → ∃ x, rs_wds s !! i = Some x ∧ mach x = stateCPClose) →
  rdstep s l s' → inits s l = false →
  ∀ p i, rs_tab s' !! p = Some i → ∃ x, rs_wds s' !! i = Some x ∧ mach x = stateCPClose.
Proof.
  intros Q Hs Hi. destruct Hs as [q ok0 ok1 s' r Hq|g l l1 x l2 Hr Hg|g l l1 l2 gr wd Hpc Hq Hg Hw|g ok Hpc|g ok0 ok1 Hpc]; try exact Q.
  - destruct (closing_request s q ok0 ok1 s' r Q Hq Hi) as [->|(p&i&x&Ht&Hx&->)]; [exact Q|].
    intros p' j. cbn [rs_tab rs_wds set_wd]. intros Hj. destruct (decide (j = i)) as [->|Hne]; [rewrite lookup_insert|rewrite lookup_insert_ne by done; eauto].
    eexists. split; [done|]. apply clear_unwatch. destruct (Q p i Ht) as (y&Y1&Y2). rewrite Hx in Y1. by injection Y1 as <-.
  - intros p i Hp. destruct (readDir_wds s ok g) as (W1&_&_&W2). cbn [rs_tab rs_wds set_pc] in *. rewrite W1, W2 in *. eauto.
  - unfold loopstate. change (rs_grips (set_pc s PWait)) with (rs_grips s). destruct (rs_grips s !! g) as [gr|] eqn:Hg; [|exact Q].
    change (rs_wds (set_pc s PWait)) with (rs_wds s). destruct (rs_wds s !! g_parent gr) as [x|] eqn:Hx; [|exact Q].
    set (j := g_parent gr) in *. destruct (mach x =? 0) eqn:Hz; [exact Q|]. set (x' := with_count x (dec8 (w_count x))).
    set (s1 := set_wd (set_pc s PWait) j x').
    assert (∀ p i, rs_tab s1 !! p = Some i → ∃ y, rs_wds s1 !! i = Some y ∧ mach y = stateCPClose) as Q1.
    { intros p i Hp. destruct (Q p i Hp) as (y&Y1&Y2). unfold s1. cbn [rs_wds set_wd set_pc]. destruct (decide (i = j)) as [->|Hne]; [rewrite lookup_insert|rewrite lookup_insert_ne by done; eauto].
      exists x'. split; [done|]. rewrite Hx in Y1. by injection Y1 as <-. }
    destruct (w_count x' =? 0); [|exact Q1]. destruct (mach x =? stateRewatch) eqn:Hm.
    { intros p i. destruct (decide (i = j)) as [->|Hne].
      - intros Hp. exfalso. assert (rs_tab s !! p = Some j) as Hp'.
        { revert Hp. rewrite (proj2 (recreate_frame s1 ok0 ok1 j (S j) ltac:(lia))). done. }
        destruct (Q p j Hp') as (y&Y1&Y2). rewrite Hx in Y1. injection Y1 as <-. apply N.eqb_eq in Hm. rewrite Y2 in Hm. done.
      - destruct (recreate_frame s1 ok0 ok1 j i Hne) as [F1 F2]. rewrite F1, F2. apply Q1. }
    destruct (mach x =? stateUnwatch); [|destruct (mach x =? stateCPClose); exact Q1].
    intros p i. cbn [rs_tab rs_wds set_tab]. destruct (close_wds s1 x') as [-> ->]. intros [_ Hp]%lookup_delete_Some. by apply Q1 in Hp.
Qed.
Lemma closing_step s l s' : closing s → cstep s l s' → is_watch l = false → closing s'.
Proof.
  intros [A B C D] Hs Hw. destruct Hs as [l r Hp Hr Hl|p e k Hi Hc|Hc Hst|order err Hc Hst Ho|err Hc Hp|err Hc|n m Hp Hpc Hk Hwg|err Hc Hwg]; cbn zeta; try done.
  - rewrite (no_watch_inits _ l Hw). cbn [andb]. split; cbn [c_start c_port c_keys c_closer c_rs c_wg].
    + by rewrite orb_false_r.
    + rewrite orb_false_r. apply B.
    + rewrite orb_false_r. intros Hport. specialize (C Hport). specialize (Hl Hport). destruct l as [q ok0 ok1 res|?|?|?|?]; try done.
      remember (LReq q ok0 ok1 res) as l eqn:El. destruct Hr as [q' ok0' ok1' s' r' Hq| | | |]; try discriminate El.
      destruct (closing_request _ _ _ _ _ _ D Hq (no_watch_inits _ _ Hw)) as [->|(p&i&x&Ht&Hx&->)]; exact C.
    + eapply closing_tab; [exact D|exact Hr|by apply no_watch_inits].
  - congruence.
  - split; cbn [c_start c_port c_keys c_closer c_rs c_wg]; [done| |congruence|done]. intros _ e _. lia.
  - split; cbn [c_start c_port c_keys c_closer c_rs c_wg]; [done| |done|done]. intros _ e _. lia.
Qed.
Lemma closing_steps s tr s' : closing s → csteps s tr s' → no_watch tr → closing s'.
Proof.
  intros A Hs. induction Hs as [s|s tr s1 l s2 Hs IH Hl]; [done|]. intros [H1 H2]%Forall_app. apply Forall_cons_1 in H2 as [H2 _].
  eapply closing_step; [by apply IH|done|done].
Qed.
Lemma closing_begin tr s order err s' : cexec tr s → cstep s (KClose order err) s' → closing s'.
Proof.
  intros Hx Hs. pose proof (cexec_ask _ _ Hx) as A. pose proof (cexec_started _ _ Hx) as S. remember (KClose order err) as l eqn:E. destruct Hs as [| | |order' err' Hc Hst Ho| | | |]; try discriminate E.
  destruct (sd_start _ S Hst) as [Hport _]. destruct (close_entries_spec order' (c_rs s)) as (K1&K2&K3&K4&K5&K6&K7&_).
  split; cbn [c_start c_port c_keys c_closer c_rs c_wg]; [done|done|congruence|].
  intros p i. rewrite K1. intros Hp. destruct (ai_tab _ _ A p i Hp) as (x&Hx'&_). destruct (K7 i x) as (x'&H1&H2&_); [apply (order_tab _ _ i Ho); eauto|done|]. eauto.
Qed.
(** When Close returns after waiting, the loop has ended. *)
Lemma closed_state tr0 s0 s : cexec tr0 s0 → closed_between s0 s → closing s ∧ c_port s = false ∧ c_closer s = KNone ∧ ∃ tr, cexec tr s.
Proof.
  intros Hx (order&err&s1&tr&err'&s2&H1&H2&H3&H4). pose proof (closing_begin _ _ _ _ _ Hx H1) as C1. pose proof (closing_steps _ _ _ C1 H2 H3) as C2.
  assert (∃ tr, cexec tr s) as Hex.
  { eexists. eapply csteps_app; [exact Hx|]. eapply csteps_app; [by apply csteps_one|]. eapply csteps_app; [exact H2|by apply csteps_one]. }
  pose proof (closing_step _ _ _ C2 H4 eq_refl) as C3. split_and!; [done| | |done]; remember (KRet err') as l eqn:E; destruct H4 as [| | | | | | |e Hc Hw]; try discriminate E; [|done].
  cbn [c_port with_closer]. destruct (c_port s2) eqn:Hp; [|done]. exfalso. pose proof (cg_wait _ C2 Hp _ Hc). lia.
Qed.
(** Until the next Watch it stays so, and nothing is sent. *)
Lemma silent_steps s tr s' : closing s → c_port s = false → csteps s tr s' → no_watch tr → c_port s' = false ∧ rs_sent (c_rs s') = rs_sent (c_rs s).
Proof.
  intros A Hp Hs. induction Hs as [s|s tr s1 l s2 Hs IH Hl]; [done|]. intros [H1 H2]%Forall_app. apply Forall_cons_1 in H2 as [H2 _].
  destruct (IH A Hp H1) as [I1 I2]. pose proof (closing_steps _ _ _ A Hs H1) as C1. rewrite <-I2. clear IH I2 Hs.
  destruct Hl as [l r Hpa Hr Hl|p e k Hi Hc|Hc Hst|order err Hc Hst Ho|err Hc Hport|err Hc|n m Hport Hpc Hk Hwg|err Hc Hwg]; cbn zeta; try done.
  - rewrite (no_watch_inits _ l H2). cbn [andb c_port c_rs]. rewrite orb_false_r. split; [done|]. specialize (Hl I1). destruct l as [q ok0 ok1 res|?|?|?|?]; try done.
    remember (LReq q ok0 ok1 res) as l eqn:El. destruct Hr as [q' ok0' ok1' s' r' Hq| | | |]; try discriminate El.
    destruct (closing_request _ _ _ _ _ _ (cg_tab _ C1) Hq (no_watch_inits _ _ H2)) as [->|(p&i&x&Ht&Hx&->)]; done.
  - pose proof (cg_start _ C1). congruence.
Qed.

(** ** After an orderly history *)
Definition cwork (s : cstate) : nat :=
  ((if c_port s then S (steps_left (c_rs s)) else 0) + match c_closer s with KPost _ => 2 | KWait _ => 1 | KNone => 0 end)%nat.
Lemma quiet_exit s : quiet s → quiet (set_io s [] []).
Proof. by intros []. Qed.
Lemma req_is_request l : req_label l = is_request (KStep l).
Proof. by destruct l. Qed.
Lemma quiet_cstep s l s' : quiet (c_rs s) → closing s → cstep s l s' → is_watch l = false →
  quiet (c_rs s') ∧ if is_request l then cwork s' = cwork s else (cwork s' < cwork s)%nat.
Proof.
  intros Q C Hs Hw. destruct Hs as [l r Hp Hr Hl|p e k Hi Hc|Hc Hst|order err Hc Hst Ho|err Hc Hp|err Hc|n m Hp Hpc Hk Hwg|err Hc Hwg]; cbn zeta; try done.
  - pose proof (no_watch_inits (c_rs s) l Hw) as Hi. destruct (quiet_step _ _ _ Q Hr Hi) as [Q' Hn]. rewrite Hi. cbn [andb c_rs]. split; [done|].
    rewrite req_is_request in Hn. unfold cwork. cbn [c_port c_rs c_closer]. rewrite orb_false_r. destruct (is_request (KStep l)) eqn:El; [destruct Hn as (N1&N2&_); unfold steps_left; by rewrite N1, N2|].
    destruct (c_port s) eqn:Hport; [lia|]. specialize (Hl eq_refl). by destruct l as [[]| | | |].
  - pose proof (cg_start _ C). congruence.
  - split; [done|]. unfold cwork. cbn [is_request c_port c_rs c_closer]. rewrite Hc. lia.
  - split; [done|]. unfold cwork. cbn [is_request c_port c_rs c_closer]. rewrite Hc. destruct err; lia.
  - split; [by apply quiet_exit|]. unfold cwork. cbn [is_request c_port c_rs c_closer]. rewrite Hp. lia.
  - split; [done|]. unfold cwork. cbn [is_request c_port c_rs c_closer with_closer]. rewrite Hc. lia.
Qed.
Lemma quiet_csteps s tr s' : quiet (c_rs s) → closing s → csteps s tr s' → no_watch tr →
  quiet (c_rs s') ∧ (length (filter (λ l, is_request l = false) tr) + cwork s' ≤ cwork s)%nat.
Proof.
  intros Q C Hs. induction Hs as [s|s tr s1 l s2 Hs IH Hl]; [split; [done|cbn; lia]|]. intros [H1 H2]%Forall_app. apply Forall_cons_1 in H2 as [H2 _].
  destruct (IH Q C H1) as [I1 I2]. pose proof (closing_steps _ _ _ C Hs H1) as C1. destruct (quiet_cstep _ _ _ I1 C1 Hl H2) as [Q2 Hn]. split; [done|].
  rewrite filter_app, app_length. destruct (is_request l) eqn:E.
  - rewrite filter_cons_False by congruence. cbn. lia.
  - rewrite filter_cons_True by done. cbn. lia.
Qed.
(** Close is held back by the loop and by nothing else, as long as it could post. *)
Definition held (s : cstate) : Prop :=
  match c_closer s with
  | KPost _ => c_port s = true ∧ c_wg s = 0%nat
  | KWait _ => if c_port s then c_keys s ≠ 0%nat ∧ c_wg s = 1%nat else c_wg s = 0%nat
  | KNone => True
  end.
Lemma held_step s l s' : closing s → held s → cstep s l s' → is_watch l = false → l ≠ KPosted false → held s'.
Proof.
  intros C H Hs Hw Hn. unfold held in *. destruct Hs as [l r Hp Hr Hl|p e k Hi Hc|Hc Hst|order err Hc Hst Ho|err Hc Hp|err Hc|n m Hp Hpc Hk Hwg|err Hc Hwg]; cbn zeta; cbn [c_closer c_port c_wg c_keys with_closer]; try done.
  - rewrite (no_watch_inits _ l Hw). cbn [andb]. by rewrite orb_false_r.
  - pose proof (cg_start _ C). congruence.
  - rewrite Hc in H. destruct H as [_ ->]. rewrite Hp. done.
  - destruct (c_closer s) eqn:E; [done| |].
    + exfalso. lia.
    + rewrite Hp in H. lia.
Qed.
Lemma held_steps s tr s' : closing s → held s → csteps s tr s' → no_watch tr → KPosted false ∉ tr → held s'.
Proof.
  intros C H Hs. induction Hs as [s|s tr s1 l s2 Hs IH Hl]; [done|]. intros [H1 H2]%Forall_app Hn. apply Forall_cons_1 in H2 as [H2 _].
  apply not_elem_of_app in Hn as [N1 N2]. apply not_elem_of_cons in N2 as [N2 _]. eapply held_step; [by eapply closing_steps|by apply IH|done|done|done].
Qed.
Lemma held_enabled s : quiet (c_rs s) → held s → c_closer s ≠ KNone → ∃ l s', cstep s l s' ∧ is_request l = false ∧ l ≠ KPosted false.
Proof.
  intros Q H Hc. unfold held in H. destruct (c_closer s) as [|e|e] eqn:E; [done| |].
  - destruct H as [Hp _]. exists (KPosted true). eexists. split_and!; [by eapply k_post|done|done].
  - destruct (c_port s) eqn:Hp.
    + destruct H as [Hk Hw]. destruct (rs_pc (c_rs s)) as [|g|g] eqn:Hpc.
      * exists KExit. destruct (c_keys s) as [|n] eqn:Hk'; [done|]. eexists. split_and!; [by eapply (k_exit s n 0)|done|done].
      * exists (KStep (LRead g true)). eexists. split_and!; [eapply k_step; [apply Q|by apply RdRead|congruence]|done|done].
      * exists (KStep (LState g true true)). eexists. split_and!; [eapply k_step; [apply Q|by apply RdState|congruence]|done|done].
    + exists (KRet e). eexists. split_and!; [by eapply k_ret|done|done].
Qed.
(** The error of Close: that of the handles. *)
Definition mine (err : bool) (s : cstate) : Prop := match c_closer s with KPost e | KWait e => e = err | KNone => True end.
Lemma mine_steps err s tr s' : closing s → mine err s → csteps s tr s' → no_watch tr → mine err s' ∧ ∀ e, KRet e ∈ tr → e = err.
Proof.
  intros C H Hs. induction Hs as [s|s tr s1 l s2 Hs IH Hl].
  { intros _. split; [done|]. by intros e ?%elem_of_nil. }
  intros [H1 H2]%Forall_app. apply Forall_cons_1 in H2 as [H2 _]. destruct (IH C H H1) as [I1 I2]. pose proof (cg_start _ (closing_steps _ _ _ C Hs H1)) as Hst.
  cut (mine err s2 ∧ ∀ e, l = KRet e → e = err).
  { intros [J1 J2]. split; [done|]. intros e [He|He%elem_of_list_singleton]%elem_of_app; [by apply I2|by apply J2]. }
  unfold mine in *. destruct Hl as [l r Hp Hr Hl|p e k Hi Hc|Hc Hst'|order err' Hc Hst' Ho|err' Hc Hp|err' Hc|n m Hp Hpc Hk Hwg|err' Hc Hwg]; cbn zeta; cbn [c_closer with_closer].
  - split; [done|]. intros ? [=].
  - split; [done|]. intros ? [=].
  - split; [done|]. intros ? [=].
  - congruence.
  - rewrite Hc in I1. split; [done|]. intros ? [=].
  - rewrite Hc in I1. split; [by destruct err'|]. intros ? [=].
  - split; [done|]. intros ? [=].
  - rewrite Hc in I1. split; [done|]. by intros ? [= <-].
Qed.

(** ** The table stays as it is until the next Watch, after an orderly history *)
Lemma close_grip_tok s g h : closed s h = true → closed (close_grip s g) h = true ∧ tok (close_grip s g) h = tok s h.
Proof.
  intros Hc. unfold close_grip. destruct (rs_grips s !! g) as [gr|] eqn:Hg; [|done]. destruct (g_open gr) eqn:Ho; [|done].
  assert (h ≠ g) as Hne. { intros ->. unfold closed in Hc. by rewrite Hg, Ho in Hc. }
  assert (closed (set_io (set_grip s g (Grip false (g_filter gr) (g_rec gr) (g_parent gr))) (filter (λ r, r_grip r ≠ g) (rs_reads s))
    (((λ r, (r_grip r, [])) <$> filter (λ r, r_grip r = g) (rs_reads s)) ++ rs_queue s)) h = true) as Hc'.
  { unfold closed in *. cbn [rs_grips set_io set_grip]. by rewrite lookup_insert_ne. }
  cbv zeta. change (rs_reads (set_grip s g _)) with (rs_reads s). change (rs_queue (set_grip s g _)) with (rs_queue s).
  split; [exact Hc'|]. unfold tok. rewrite Hc', Hc. cbn [rs_reads rs_queue rs_pc set_io set_grip].
  assert (filter (λ r, r_grip r = h) (filter (λ r, r_grip r ≠ g) (rs_reads s)) = filter (λ r, r_grip r = h) (rs_reads s)) as ->.
  { rewrite list_filter_filter. apply list_filter_iff. intros r. split; [by intros []|intros E; split; [done|congruence]]. }
  rewrite filter_app. assert (filter (λ x : nat * list fninfo, x.1 = h) ((λ r, (r_grip r, [])) <$> filter (λ r, r_grip r = g) (rs_reads s)) = []) as ->; [|done].
  clear - Hne. induction (rs_reads s) as [|r l IH]; [done|]. rewrite (filter_cons _ r l). destruct (decide (r_grip r = g)) as [E|E]; [|done].
  rewrite fmap_cons, filter_cons, decide_False; [done|]. cbn. congruence.
Qed.
Lemma close_entries_tok l h : ∀ s, closed s h = true → closed (close_entries s l) h = true ∧ tok (close_entries s l) h = tok s h.
Proof.
  induction l as [|i l IH]; intros s Hc; [done|]. change (close_entries s (i :: l)) with (close_entries (close_entry s i) l).
  assert (closed (close_entry s i) h = true ∧ tok (close_entry s i) h = tok s h) as [E1 E2].
  { unfold close_entry. destruct (rs_wds s !! i) as [x|]; [|done]. fold (cpclose x). unfold closeHandle. set (s1 := set_wd s i (cpclose x)).
    change (tok s h) with (tok s1 h). change (closed s h) with (closed s1 h) in Hc. clearbody s1. clear - Hc. revert s1 Hc.
    induction (grips_of (cpclose x)) as [|g gl IH]; intros s1 Hc; [done|]. cbn [foldl]. destruct (close_grip_tok s1 g h Hc) as [K1 K2]. rewrite <-K2. by apply IH. }
  destruct (IH _ E1) as [K1 K2]. split; [done|congruence].
Qed.
Record quiet2 (s : rstate) : Prop := {
  q2_own : ∀ g gr, rs_grips s !! g = Some gr → ∃ x, rs_wds s !! g_parent gr = Some x ∧ (mach x = stateUnwatch → g ∉ grips_of x → tok s g = 0%nat);
  q2_dead : ∀ i x, rs_wds s !! i = Some x → mach x = stateUnwatch → ∃ k, w_count x = (256 - N.of_nat k) mod 256 ∧ (k + total s x ≤ 10)%nat;
}.
Lemma quiet2_close tr s order : rdorderly tr s → order ≡ₚ (map_to_list (rs_tab s)).*2 → quiet2 (close_entries s order).
Proof.
  intros Ho Hord. pose proof (rdorderly_inv _ _ Ho) as J. destruct (close_entries_spec order s) as (K1&K2&K3&K4&K5&K6&K7&K8&K9&K10). set (s' := close_entries s order) in *.
  assert (∀ i x', rs_wds s' !! i = Some x' → mach x' = stateUnwatch → rs_wds s !! i = Some x' ∧ rs_tab s !! w_path x' ≠ Some i) as Hdead.
  { intros i x' Hx' Hm. destruct (decide (i ∈ order)) as [Hi|Hi].
    - exfalso. apply (order_tab s order i Hord) in Hi as Hi'. destruct Hi' as (p&Hp). destruct (ri_tab _ _ J p i Hp) as (x&Hx&_).
      destruct (K7 i x Hi Hx) as (x''&H1&H2&_). rewrite Hx' in H1. injection H1 as <-. rewrite H2 in Hm. done.
    - rewrite K6 in Hx' by done. split; [done|]. intros Ht. apply Hi. apply (order_tab s order i Hord). eauto. }
  split.
  - intros g gr' Hg. destruct (K9 g gr' Hg) as (gr&G1&G2). destruct (ri_gr _ _ J g gr G1) as (x&Hx&Hno).
    assert (g_parent gr' = g_parent gr) as -> by (by destruct G2 as [->| ->]).
    assert (∃ x', rs_wds s' !! g_parent gr = Some x') as [x' Hx'].
    { destruct (decide (g_parent gr ∈ order)) as [Hi|Hi]; [destruct (K7 _ x Hi Hx) as (x'&?&_); eauto|rewrite K6 by done; eauto]. }
    exists x'. split; [done|]. intros Hm Hn. destruct (Hdead _ _ Hx' Hm) as [Hx2 _]. rewrite Hx in Hx2. injection Hx2 as <-. destruct (Hno Hn) as [N1 N2].
    assert (closed s g = true) as Hc by (unfold closed; rewrite G1, N1; done). rewrite <-N2. apply (close_entries_tok order g s Hc).
  - intros i x Hx Hm. destruct (Hdead i x Hx Hm) as [Hx0 Ht]. destruct (ri_dead _ _ J i x Hx0 Ht) as (e&k&_&_&Hc&Hk1&Hk2). exists k. split; [done|].
    rewrite (total_ext s s'); [done|]. intros g Hg. by apply close_entries_tok, Hc.
Qed.
Lemma total_le s s' x : (∀ g, (tok s' g ≤ tok s g)%nat) → (total s' x ≤ total s x)%nat.
Proof. intros H. unfold total. induction (grips_of x) as [|g l IH]; [done|]. rewrite !fmap_cons, !sum_cons. specialize (H g). lia. Qed.
Lemma total_lt s s' x g : (∀ g, (tok s' g ≤ tok s g)%nat) → g ∈ grips_of x → (tok s' g < tok s g)%nat → (total s' x < total s x)%nat.
Proof.
  intros H Hg Hlt. unfold total. induction (grips_of x) as [|h l IH]; [by apply elem_of_nil in Hg|]. rewrite !fmap_cons, !sum_cons. pose proof (H h). apply elem_of_cons in Hg as [->|Hg].
  - assert (sum_list (tok s' <$> l) ≤ sum_list (tok s <$> l))%nat; [|lia]. clear - H. induction l as [|h' l IH]; [done|]. rewrite !fmap_cons, !sum_cons. specialize (H h'). lia.
  - specialize (IH Hg). lia.
Qed.
Lemma quiet2_less s s' : quiet2 s → rs_grips s' = rs_grips s → rs_wds s' = rs_wds s → (∀ g, (tok s' g ≤ tok s g)%nat) → quiet2 s'.
Proof.
  intros [A B] E1 E2 H. split; rewrite ?E1, ?E2.
  - intros g gr Hg. destruct (A g gr Hg) as (x&X1&X2). exists x. split; [done|]. intros H1 H2. pose proof (H g). rewrite (X2 H1 H2) in *. lia.
  - intros i x Hx Hm. destruct (B i x Hx Hm) as (k&K1&K2). exists k. split; [done|]. pose proof (total_le s s' x H). lia.
Qed.
Lemma quiet2_step s l s' : quiet s → quiet2 s → rdstep s l s' → inits s l = false → quiet2 s' ∧ rs_tab s' = rs_tab s.
Proof.
  intros Q Q2 Hs Hi. destruct Hs as [q ok0 ok1 s' r Hq|g l l1 x l2 Hr Hg|g l l1 l2 gr wd Hpc Hq Hg Hw|g ok Hpc|g ok0 ok1 Hpc].
  - destruct (closing_request s q ok0 ok1 s' r (qu_tab _ Q) Hq Hi) as [->|(p&i&x&Ht&Hx&->)]; [done|]. split; [|done].
    destruct (qu_tab _ Q p i Ht) as (y&Y1&Y2). rewrite Hx in Y1. injection Y1 as <-. pose proof (clear_unwatch x Y2) as Hm. set (x' := with_filter x (w_filter x .&^ stateUnwatch)) in *.
    destruct Q2 as [A B]. split; cbn [rs_grips rs_wds set_wd].
    + intros g gr Hg. destruct (decide (g_parent gr = i)) as [->|Hne]; [rewrite lookup_insert|rewrite lookup_insert_ne by done; exact (A g gr Hg)].
      exists x'. split; [done|]. rewrite Hm. done.
    + intros j z. destruct (decide (j = i)) as [->|Hne]; [rewrite lookup_insert|rewrite lookup_insert_ne by done; exact (B j z)]. intros [= <-]. rewrite Hm. done.
  - exfalso. rewrite (qu_reads _ Q) in Hr. by destruct l1.
  - split; [|done]. eapply quiet2_less; [exact Q2|done|done|]. intros h. by rewrite (take_tok s g l l1 l2 _ h Hpc Hq).
  - split; [|cbn [rs_tab set_pc]; apply readDir_wds]. assert (readDirChanges s ok g = s) as ->.
    { unfold readDirChanges. destruct (rs_grips s !! g) as [gr|] eqn:Hg; [|done]. by rewrite (qu_shut _ Q g gr Hg). }
    eapply quiet2_less; [exact Q2|done|done|]. intros h. unfold tok. cbn [rs_reads rs_queue rs_pc set_pc]. rewrite Hpc. change (closed (set_pc s (PState g)) h) with (closed s h).
    destruct (decide (g = h)); [destruct (closed s h); cbn [b2n]; lia|lia].
  - set (s0 := set_pc s PWait). assert (∀ h, (tok s0 h ≤ tok s h)%nat) as Hle by (intros h; unfold tok, s0; cbn [rs_reads rs_queue rs_pc set_pc]; lia).
    assert (quiet2 s0) as Q0 by (by eapply quiet2_less). unfold loopstate. change (rs_grips s0) with (rs_grips s). destruct (rs_grips s !! g) as [gr|] eqn:Hg; [|done].
    change (rs_wds s0) with (rs_wds s). destruct (rs_wds s !! g_parent gr) as [x|] eqn:Hx; [|done]. set (i := g_parent gr) in *. destruct (mach x =? 0); [done|].
    set (x' := with_count x (dec8 (w_count x))).
    assert (tok s0 g < tok s g)%nat as Hlt.
    { unfold tok, s0. cbn [rs_reads rs_queue rs_pc set_pc]. rewrite Hpc, decide_True by done. unfold closed. rewrite Hg, (qu_shut _ Q g gr Hg). cbn [negb b2n]. lia. }
    assert (mach x = stateUnwatch → ∃ k, w_count x' = (256 - N.of_nat k) mod 256 ∧ (1 ≤ k)%nat ∧ (k + total s0 x ≤ 10)%nat) as Hk.
    { intros Hm. destruct (q2_dead _ Q2 i x Hx Hm) as (k&K1&K2). exists (S k).
      assert (g ∈ grips_of x) as Hin.
      { destruct (decide (g ∈ grips_of x)) as [?|Hn]; [done|]. destruct (q2_own _ Q2 g gr Hg) as (y&Y1&Y2). change (g_parent gr) with i in Y1. rewrite Hx in Y1. injection Y1 as <-. specialize (Y2 Hm Hn). lia. }
      pose proof (total_lt s s0 x g Hle Hin Hlt). split_and!; [|lia|lia]. unfold x'. cbn [w_count with_count]. rewrite K1. unfold dec8.
      assert (k ≤ 9)%nat as Hk by lia. clear - Hk. do 10 (destruct k as [|k]; [by vm_compute|]). lia. }
    assert (quiet2 (set_wd s0 i x')) as Q1.
    { destruct Q0 as [A B]. split; cbn [rs_grips rs_wds set_wd].
      - intros h gh Hh. destruct (A h gh Hh) as (y&Y1&Y2). destruct (decide (g_parent gh = i)) as [E|Hne]; [rewrite E in *; rewrite lookup_insert|rewrite lookup_insert_ne by done; exists y; done].
        exists x'. split; [done|]. change (rs_wds s0) with (rs_wds s) in Y1. rewrite Hx in Y1. injection Y1 as <-. exact Y2.
      - intros j z. destruct (decide (j = i)) as [->|Hne]; [rewrite lookup_insert|rewrite lookup_insert_ne by done; exact (B j z)]. intros [= <-] Hm. destruct (Hk Hm) as (k&K1&_&K3). exists k. done. }
    destruct (w_count x' =? 0) eqn:Hz; [|done]. destruct (qu_wds _ Q _ _ Hx) as [Hm|Hm]; rewrite Hm.
    + change (stateCPClose =? stateRewatch) with false. change (stateCPClose =? stateUnwatch) with false. change (stateCPClose =? stateCPClose) with true. done.
    + exfalso. destruct (Hk Hm) as (k&K1&K2&K3). apply N.eqb_eq in Hz. rewrite K1 in Hz. assert (k ≤ 10)%nat as K4 by lia. clear - Hz K2 K4.
      destruct k as [|k]; [lia|]. do 10 (destruct k as [|k]; [by vm_compute in Hz|]). lia.
Qed.
Lemma kept_cstep s l s' : quiet (c_rs s) → quiet2 (c_rs s) → closing s → cstep s l s' → is_watch l = false → quiet2 (c_rs s') ∧ rs_tab (c_rs s') = rs_tab (c_rs s).
Proof.
  intros Q Q2 C Hs Hw. destruct Hs as [l r Hp Hr Hl|p e k Hi Hc|Hc Hst|order err Hc Hst Ho|err Hc Hp|err Hc|n m Hp Hpc Hk Hwg|err Hc Hwg]; cbn zeta; cbn [c_rs with_closer]; try done.
  - by apply (quiet2_step (c_rs s) l r Q Q2 Hr), no_watch_inits.
  - pose proof (cg_start _ C). congruence.
  - split; [|done]. eapply quiet2_less; [exact Q2|done|done|]. intros g. unfold tok. cbn [rs_reads rs_queue rs_pc set_io]. rewrite Hpc. cbn. lia.
Qed.
Lemma kept_csteps s tr s' : quiet (c_rs s) → quiet2 (c_rs s) → closing s → csteps s tr s' → no_watch tr → rs_tab (c_rs s') = rs_tab (c_rs s).
Proof.
  intros Q Q2 C Hs Hn. cut (quiet2 (c_rs s') ∧ rs_tab (c_rs s') = rs_tab (c_rs s)); [by intros []|]. revert Q Q2 C Hn.
  induction Hs as [s|s tr s1 l s2 Hs IH Hl]; [done|]. intros Q Q2 C [H1 H2]%Forall_app. apply Forall_cons_1 in H2 as [H2 _].
  destruct (IH Q Q2 C H1) as [I1 I2]. destruct (quiet_csteps _ _ _ Q C Hs H1) as [Q' _]. pose proof (closing_steps _ _ _ C Hs H1) as C'.
  destruct (kept_cstep _ _ _ Q' I1 C' Hl H2) as [J1 J2]. split; [done|congruence].
Qed.
