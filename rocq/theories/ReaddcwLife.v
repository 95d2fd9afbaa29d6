(** * ReaddcwLife: when operations of the Windows watcher take effect *)
From Verif Require Import Base Event Watchpoint WatchpointFacts Readdcw SpecReaddcw ReaddcwFacts ReaddcwLoop ReaddcwRun.
Local Open Scope N_scope.

(** ** Frames *)
Lemma updateGrip_frame s ok i idx reset flag j : j ≠ i →
  rs_wds (updateGrip s ok i idx reset flag).1 !! j = rs_wds s !! j ∧ rs_tab (updateGrip s ok i idx reset flag).1 = rs_tab s.
Proof.
  intros Hj. unfold updateGrip. destruct (rs_wds s !! i) as [x|]; [|done]. destruct reset; cbn [fst].
  { split; [|done]. cbn [rs_wds set_wd]. by rewrite lookup_insert_ne. }
  destruct (the_grip x idx) as [g|], ok; cbn [fst]; rewrite ?(proj1 (close_wds _ _)), ?(proj2 (close_wds _ _)); try done;
    cbn [rs_wds rs_tab set_wd]; rewrite lookup_insert_ne by done; unfold register;
    by rewrite (proj1 (readDir_wds _ _ _)), (proj2 (proj2 (proj2 (readDir_wds _ _ _)))).
Qed.
Lemma recreate_frame s ok0 ok1 i j : j ≠ i →
  rs_wds (recreate s ok0 ok1 i).1 !! j = rs_wds s !! j ∧ rs_tab (recreate s ok0 ok1 i).1 = rs_tab s.
Proof.
  intros Hj. unfold recreate. destruct (rs_wds s !! i) as [x|] eqn:Hx; [|done].
  pose proof (updateGrip_frame s ok0 i false (w_filter x .&^ DN =? 0) (w_filter x .&^ DN) j Hj) as [H1 T1]. destruct (updateGrip s ok0 i false _ _) as [s1 b1]. cbn [fst] in *.
  destruct b1; cbn [negb]; [|done].
  pose proof (updateGrip_frame s1 ok1 i true (w_filter x .& dset =? 0) (w_filter x .| dirmarker) j Hj) as [H2 T2]. destruct (updateGrip s1 ok1 i true _ _) as [s2 b2]. cbn [fst] in *.
  destruct b2; cbn [negb fst]; [|split; congruence]. destruct (rs_wds s2 !! i); cbn [fst]; [|split; congruence].
  cbn [rs_wds rs_tab set_wd]. rewrite lookup_insert_ne by done. split; congruence.
Qed.
Lemma updateGrip_true s i x idx reset flag : rs_wds s !! i = Some x → ∃ x', (updateGrip s true i idx reset flag).2 = true ∧ rs_wds (updateGrip s true i idx reset flag).1 !! i = Some x'.
Proof.
  intros Hx. destruct reset.
  - unfold updateGrip. rewrite Hx. cbn [fst snd rs_wds set_wd]. rewrite lookup_insert. eauto.
  - rewrite (updateGrip_spec s i x idx flag Hx). cbn [fst snd rs_wds regs_state]. rewrite lookup_insert. eauto.
Qed.
Lemma recreate_clear s i x : rs_wds s !! i = Some x → ∃ x', rs_wds (recreate s true true i).1 !! i = Some x' ∧ w_filter x' .& onlyMachineStates = 0.
Proof.
  intros Hx. unfold recreate. rewrite Hx.
  destruct (updateGrip_true s i x false (w_filter x .&^ DN =? 0) (w_filter x .&^ DN) Hx) as (x1&B1&X1). destruct (updateGrip s true i false _ _) as [s1 b1]. cbn [fst snd] in *.
  subst b1. cbn [negb].
  destruct (updateGrip_true s1 i x1 true (w_filter x .& dset =? 0) (w_filter x .| dirmarker) X1) as (x2&B2&X2). destruct (updateGrip s1 true i true _ _) as [s2 b2]. cbn [fst snd] in *.
  subst b2. cbn [negb]. rewrite X2. cbn [fst rs_wds set_wd]. rewrite lookup_insert. eexists. split; [done|]. cbn [w_filter with_filter].
  apply has_ext. intros k. rewrite has_land, has_ldiff. split; [tauto|by intros ?%has_0].
Qed.
(** A request leaves the other directories alone. *)
Lemma request_frame W s q ok0 ok1 s' r p i : rdinv W s → rd_request s q ok0 ok1 = (s', r) → p ≠ req_path q → rs_tab s !! p = Some i →
  rs_tab s' !! p = Some i ∧ rs_wds s' !! i = rs_wds s !! i.
Proof.
  intros J Hq Hp Ht. destruct (ri_tab _ _ J p i Ht) as (xi&Xi&Pi). pose proof (ri_wn _ _ J i xi Xi) as Hi.
  assert (∀ p' j, p' ≠ p → rs_tab s !! p' = Some j → i ≠ j) as Hother.
  { intros p' j Hp' Hj ->. destruct (ri_tab _ _ J p' j Hj) as (y&Y&Py). congruence. }
  destruct q as [p' e k|p' old new k|p']; cbn [rd_request req_path] in *.
  - unfold rd_watch in Hq. destruct (nonzero _); [by injection Hq as <- <-|]. destruct (rs_tab s !! p') as [j|] eqn:Hj.
    + destruct (rs_wds s !! j); apply pair_equal_spec in Hq as [<- <-]; [|done]. cbn [rs_tab rs_wds set_wd]. rewrite lookup_insert_ne; [done|]. by apply not_eq_sym, (Hother p').
    + pose proof (recreate_frame (set_wd (set_next s (S (rs_next s))) (rs_next s) (Wd e k 0 p' None None)) ok0 ok1 (rs_next s) i ltac:(lia)) as [F1 F2].
      cbn [rs_tab rs_wds set_wd set_next] in F1, F2. rewrite lookup_insert_ne in F1 by lia.
      destruct (recreate _ ok0 ok1 (rs_next s)) as [s2 b2]. cbn [fst] in *. destruct b2; apply pair_equal_spec in Hq as [<- <-]; [|by rewrite F2].
      cbn [rs_tab rs_wds set_tab]. rewrite lookup_insert_ne by done. by rewrite F2.
  - unfold rd_rewatch in Hq. destruct (nonzero _); [by injection Hq as <- <-|]. destruct (nonState s p') as [[j x]|] eqn:Hns; [|by injection Hq as <- <-].
    destruct (settled_of _ _ _ _ _ J Hns) as (Hj&_). assert (j ≠ i) as Hji by (by apply not_eq_sym, (Hother p')).
    destruct (nonzero _); [by apply pair_equal_spec in Hq as [<- <-]|]. 
    destruct ok0; apply pair_equal_spec in Hq as [<- <-]; rewrite (proj1 (close_wds _ _)), (proj2 (close_wds _ _)); cbn [rs_tab rs_wds set_wd]; by rewrite lookup_insert_ne.
  - unfold rd_unwatch in Hq. destruct (nonState s p') as [[j x]|] eqn:Hns; [|by injection Hq as <- <-].
    destruct (settled_of _ _ _ _ _ J Hns) as (Hj&_). assert (j ≠ i) as Hji by (by apply not_eq_sym, (Hother p')).
    destruct ok0; [|destruct ok1]; apply pair_equal_spec in Hq as [<- <-]; try done; cbn [rs_tab rs_wds set_wd set_io]; by rewrite lookup_insert_ne.
Qed.
Lemma in_progress_same s s' p i : rs_tab s !! p = Some i → rs_tab s' !! p = Some i → rs_wds s' !! i = rs_wds s !! i → in_progress s p ↔ in_progress s' p.
Proof. intros T T' E. unfold in_progress. split; intros (j&x&H1&H2&H3); exists j, x; rewrite ?T, ?T' in *; injection H1 as <-; rewrite ?E in *; done. Qed.

(** ** Phases seen from outside *)
Lemma phase W s p : rdinv W s → in_progress s p → ∃ i x, rs_tab s !! p = Some i ∧ rs_wds s !! i = Some x ∧ w_path x = p ∧
  (is_Some (W p) ∧ rewatching W s x ∨ W p = None ∧ unwatching W s x).
Proof.
  intros J (i&x&Ht&Hx&Hf). destruct (ri_tab _ _ J p i Ht) as (x'&X&P). rewrite Hx in X. injection X as <-. exists i, x. split_and!; try done.
  destruct (ri_live _ _ J i x Hx) as [K|[K|K]]; [by rewrite P|exfalso|left|right].
  - destruct K as (e&r&_&He&_&HF&_). apply Hf. rewrite HF. apply land_zero_disj, (req_disj e _ He). by vm_compute.
  - split; [|done]. destruct K as (e&r&K&_). rewrite <-P, K. eauto.
  - split; [|done]. destruct K as (e&K&_). by rewrite <-P.
Qed.
Lemma at_rest W s p i : rdinv W s → ¬ in_progress s p → rs_tab s !! p = Some i → ∃ x, rs_wds s !! i = Some x ∧ w_path x = p ∧ settled W s i x.
Proof.
  intros J Hn Ht. destruct (ri_tab _ _ J p i Ht) as (x&Hx&P). exists x. split_and!; try done.
  apply (settled_of W s p i x J). unfold nonState. rewrite Ht, Hx. destruct (nonzero (w_filter x .& onlyMachineStates)) eqn:E; [|done].
  exfalso. apply Hn. exists i, x. split_and!; try done. apply negb_true_iff, N.eqb_neq in E. done.
Qed.
Lemma tok_zero s g : tok s g = 0%nat → (¬ ∃ r, r ∈ rs_reads s ∧ r_grip r = g) ∧ g ∉ (rs_queue s).*1 ∧ rs_pc s ≠ PRead g.
Proof.
  unfold tok. intros H. assert (length (filter (λ r, r_grip r = g) (rs_reads s)) = 0 ∧ length (filter (λ x, x.1 = g) (rs_queue s)) = 0)%nat as [H1 H2] by lia.
  apply nil_length_inv in H1, H2. split_and!.
  - intros (r&Hr&E). assert (r ∈ filter (λ r, r_grip r = g) (rs_reads s)) as K by (by apply elem_of_list_filter). rewrite H1 in K. by apply elem_of_nil in K.
  - intros (x&->&Hx)%elem_of_list_fmap. assert (x ∈ filter (λ y : nat * list fninfo, y.1 = x.1) (rs_queue s)) as K by (by apply elem_of_list_filter). rewrite H2 in K. by apply elem_of_nil in K.
  - intros E. rewrite E, decide_True in H by done. lia.
Qed.
Lemma tok_pos s g : tok s g ≠ 0%nat → (∃ r, r ∈ rs_reads s ∧ r_grip r = g) ∨ g ∈ (rs_queue s).*1 ∨ rs_pc s = PRead g ∨ rs_pc s = PState g.
Proof.
  unfold tok. intros H.
  destruct (filter (λ r, r_grip r = g) (rs_reads s)) as [|r l] eqn:E1.
  - destruct (filter (λ x, x.1 = g) (rs_queue s)) as [|x l] eqn:E2.
    + right; right. cbn [length] in H. destruct (rs_pc s) as [|h|h]; [lia|left|right]; destruct (decide (h = g)) as [->|]; try done; lia.
    + right; left. assert (x ∈ x :: l) as K by (by left). rewrite <-E2 in K. apply elem_of_list_filter in K as [<- K]. apply elem_of_list_fmap. eauto.
  - left. assert (r ∈ r :: l) as K by (by left). rewrite <-E1 in K. apply elem_of_list_filter in K as [<- K]. eauto.
Qed.
Lemma total_pos s x : (1 ≤ total s x)%nat → ∃ g, g ∈ grips_of x ∧ tok s g ≠ 0%nat.
Proof.
  unfold total. induction (grips_of x) as [|g l IH]; [cbn; lia|]. rewrite fmap_cons, sum_cons. intros H. destruct (decide (tok s g = 0%nat)) as [E|E].
  - destruct IH as (h&H1&H2); [lia|]. exists h. split; [by right|done].
  - exists g. split; [by left|done].
Qed.
Lemma total_all_zero s x : (∀ g, g ∈ grips_of x → tok s g = 0%nat) → total s x = 0%nat.
Proof. intros H. rewrite (total_const s x 0 H). lia. Qed.

Lemma rewatch_progress tr s p : rdorderly tr s → is_Some (want tr p) → in_progress s p → completion s p.
Proof.
  intros Ho Hw Hp. pose proof (rdorderly_inv _ _ Ho) as J. destruct (phase _ _ _ J Hp) as (i&x&Ht&Hx&P&[[_ K]|[K _]]); [|by rewrite K in Hw; destruct Hw].
  destruct K as (e&r&_&_&_&_&_&K6&_&K8). apply total_pos in K8 as (g&Hg&Hk). destruct (ri_own _ _ J i x Hx) as [_ Hown]. destruct (Hown g Hg) as (gr&G1&G2).
  exists g. split; [exists gr; split; [done|]; congruence|]. destruct (tok_pos s g Hk) as [(rd&Hr&E)|K]; [|done].
  exfalso. pose proof (rdorderly_open _ _ Ho rd Hr) as Hc. rewrite E in Hc. destruct (K6 g Hg). congruence.
Qed.
Lemma step_other W s l s' p i : rdinv W s → rdstep s l s' → rs_tab s !! p = Some i →
  (∀ q a c r, l = LReq q a c r → p ≠ req_path q) → (∀ g a c gr, l = LState g a c → rs_grips s !! g = Some gr → g_parent gr ≠ i) →
  rs_tab s' !! p = Some i ∧ rs_wds s' !! i = rs_wds s !! i.
Proof.
  intros J Hs Ht Hq Hst. destruct Hs as [q ok0 ok1 s' r Hr|g l l1 x l2 Hr Hg|g l l1 l2 gr wd Hpc Hq' Hg Hw|g ok Hpc|g ok0 ok1 Hpc]; try done.
  - eapply request_frame; try done. by eapply Hq.
  - unfold readDirChanges. destruct (rs_grips s !! g) as [gr|]; [destruct (g_open gr && ok)|]; done.
  - unfold loopstate. change (rs_grips (set_pc s PWait)) with (rs_grips s). destruct (rs_grips s !! g) as [gr|] eqn:Hg; [|done].
    specialize (Hst g ok0 ok1 gr eq_refl Hg). set (j := g_parent gr) in *. change (rs_wds (set_pc s PWait)) with (rs_wds s). destruct (rs_wds s !! j) as [x|] eqn:Hx; [|done].
    set (st := w_filter x .& onlyMachineStates). destruct (st =? 0) eqn:Es; [done|].
    set (x1 := with_count x (dec8 (w_count x))). set (s1 := set_wd (set_pc s PWait) j x1).
    assert (rs_tab s1 !! p = Some i ∧ rs_wds s1 !! i = rs_wds s !! i) as [T1 W1].
    { split; [done|]. cbn [s1 rs_wds set_wd]. by rewrite lookup_insert_ne. }
    destruct (w_count x1 =? 0) eqn:Ec; [|done]. destruct (st =? stateRewatch).
    { destruct (recreate_frame s1 ok0 ok1 j i (not_eq_sym Hst)) as [F1 F2]. by rewrite F1, F2. }
    destruct (st =? stateUnwatch); [|by destruct (st =? stateCPClose)].
    cbn [rs_tab rs_wds set_tab]. rewrite (proj1 (close_wds _ _)), (proj2 (close_wds _ _)). split; [|done].
    change (w_path x1) with (w_path x). destruct (decide (w_path x = p)) as [E|E]; [|by rewrite lookup_delete_ne].
    (* an entry with the same path that is no longer in the table never gets here *)
    exfalso. destruct (ri_dead _ _ J j x Hx) as (e&k&D1&D2&D3&D4&D5); [rewrite E, Ht; by intros [= <-]|].
    assert (g ∈ grips_of x) as Hin.
    { destruct (decide (g ∈ grips_of x)) as [|Hn]; [done|]. destruct (ri_gr _ _ J g gr Hg) as (y&Y1&Y2). fold j in Y1. rewrite Hx in Y1. injection Y1 as <-.
      destruct (Y2 Hn) as [O1 O2]. rewrite (state_tok s g g Hpc), decide_True in O2 by done. unfold closed in O2. rewrite Hg, O1 in O2. cbn in O2. lia. }
    assert (1 ≤ total s x)%nat as Htot.
    { destruct (decide (total s x = 0%nat)) as [Z|]; [|lia]. apply (total_zero s x g) in Z; [|done]. rewrite (state_tok s g g Hpc), decide_True, (D3 g Hin) in Z by done. cbn in Z. lia. }
    cbn [x1 w_count with_count] in Ec. rewrite D4 in Ec. unfold dec8 in Ec.
    destruct k as [|k]; [done|]. rewrite (N.mod_small (256 - _)) in Ec by lia. replace (256 - N.of_nat (S k) + 255) with ((256 - N.of_nat (S (S k))) + 1 * 256) in Ec by lia.
    rewrite N.mod_add, N.mod_small in Ec by lia. apply N.eqb_eq in Ec. lia.
Qed.
Lemma request_busy s q ok0 ok1 p : in_progress s p → (q = QUnwatch p ∨ ∃ old new k, q = QRewatch p old new k) → rd_request s q ok0 ok1 = (s, false).
Proof.
  intros (i&x&Ht&Hx&Hf) Hq. assert (nonState s p = None) as Hn.
  { unfold nonState. rewrite Ht, Hx. apply N.eqb_neq in Hf. by rewrite Hf. }
  destruct Hq as [->|(old&new&k&->)]; cbn [rd_request].
  - unfold rd_unwatch. by rewrite Hn.
  - unfold rd_rewatch. rewrite Hn. by destruct (nonzero _).
Qed.
(** The only steps that may end an operation. *)
Lemma ends tr s l s' p : rdorderly tr s → orderly_label tr s l → rdstep s l s' → in_progress s p → ¬ in_progress s' p →
  ∃ g a c, l = LState g a c ∧ current s p g.
Proof.
  intros Ho Hl Hs Hp Hn. pose proof (rdorderly_inv _ _ Ho) as J. destruct (phase _ _ _ J Hp) as (i&x&Ht&Hx&P&_).
  destruct l as [q ok0 ok1 r|g l|g l|g ok|g ok0 ok1].
  - exfalso. destruct (decide (p = req_path q)) as [->|Hne].
    + assert (rd_request s q ok0 ok1 = (s', r)) as Hq by (by inversion Hs). destruct Hl as [_ Hl].
      destruct q as [p' e k|p' old new k|p']; cbn [req_path] in *.
      * destruct Hl as (_&_&_&_&Hl). congruence.
      * rewrite (request_busy s _ ok0 ok1 p') in Hq; [by injection Hq as <- <-|done|right; eauto].
      * rewrite (request_busy s _ ok0 ok1 p') in Hq; [by injection Hq as <- <-|done|by left].
    + destruct (step_other _ _ _ _ p i J Hs) as [T E]; [done|by intros ???? [= <- <- <- <-]|done|]. apply Hn. by apply (in_progress_same s s' p i).
  - exfalso. destruct (step_other _ _ _ _ p i J Hs) as [T E]; [done..|]. apply Hn. by apply (in_progress_same s s' p i).
  - exfalso. destruct (step_other _ _ _ _ p i J Hs) as [T E]; [done..|]. apply Hn. by apply (in_progress_same s s' p i).
  - exfalso. destruct (step_other _ _ _ _ p i J Hs) as [T E]; [done..|]. apply Hn. by apply (in_progress_same s s' p i).
  - exists g, ok0, ok1. split; [done|]. destruct (rs_grips s !! g) as [gr|] eqn:Hg.
    + destruct (decide (g_parent gr = i)) as [<-|Hne]; [by exists gr|]. exfalso.
      destruct (step_other _ _ _ _ p i J Hs) as [T E]; [done|done| |].
      { intros g' a c gr' [= <- <- <-] Hg'. rewrite Hg in Hg'. by injection Hg' as <-. }
      apply Hn. by apply (in_progress_same s s' p i).
    + exfalso. destruct (step_other _ _ _ _ p i J Hs) as [T E]; [done|done| |].
      { intros g' a c gr' [= <- <- <-] Hg'. congruence. }
      apply Hn. by apply (in_progress_same s s' p i).
Qed.
Lemma rewatch_effect tr s l s' p : rdorderly tr s → is_Some (want tr p) → in_progress s p → orderly_label tr s l → rdstep s l s' →
  ¬ in_progress s' p ↔ ∃ g a c, l = LState g a c ∧ current s p g ∧ ¬ outstanding s p.
Proof.
  intros Ho Hw Hp Hl Hs. pose proof (rdorderly_inv _ _ Ho) as J. destruct (phase _ _ _ J Hp) as (i&x&Ht&Hx&P&[[_ K]|[K _]]); [|by rewrite K in Hw; destruct Hw].
  destruct K as (e&r&S1&S2&S3&S4&S5&S6&S7&S8).
  assert (incl_ev stateRewatch onlyMachineStates) as Hr2 by (apply land_eq_incl; by vm_compute).
  (* what the loop does *)
  assert (∀ g a c, l = LState g a c → current s p g → a = true ∧ c = true ∧ rs_pc s = PState g ∧ g ∈ grips_of x ∧ (tok s g = S (tok (set_pc s PWait) g)) ∧
    total s x = S (total (set_pc s PWait) x) ∧ (total s x ≤ 2)%nat ∧
    s' = (let s1 := set_wd (set_pc s PWait) i (with_count x (w_count x - 1)) in if w_count x - 1 =? 0 then (recreate s1 true true i).1 else s1)) as Hloop.
  { intros g a c -> (gr&Hg&Hcur). rewrite Ht in Hcur. injection Hcur as Hi. destruct Hl as [-> ->]. inversion Hs as [| | | |? ? ? Hpc]; subst.
    assert (g ∈ grips_of x) as Hin.
    { destruct (decide (g ∈ grips_of x)) as [|Hn]; [done|]. destruct (ri_gr _ _ J g gr Hg) as (y&Y1&Y2). rewrite Hx in Y1. injection Y1 as <-.
      destruct (Y2 Hn) as [O1 O2]. rewrite (state_tok s g g Hpc), decide_True in O2 by done. unfold closed in O2. rewrite Hg, O1 in O2. cbn in O2. lia. }
    assert (tok s g = S (tok (set_pc s PWait) g)) as Htg.
    { rewrite (state_tok s g g Hpc), decide_True, (proj1 (S6 g Hin)) by done. cbn [b2n]. lia. }
    assert (total s x = S (total (set_pc s PWait) x)) as Htot.
    { apply (total_dec _ _ _ g); [by apply (ri_own _ _ J _ _ Hx)|done|done|]. intros h Hh. rewrite (state_tok s g h Hpc), decide_False by done. lia. }
    assert (total s x ≤ 2)%nat as Hmax.
    { pose proof (grips_len x). pose proof (total_le s x 1 ltac:(intros h Hh; by apply S6)). lia. }
    split_and!; try done.
    unfold loopstate. change (rs_grips (set_pc s PWait)) with (rs_grips s). rewrite Hg. change (rs_wds (set_pc s PWait)) with (rs_wds s). rewrite Hx.
    rewrite S4, (N.lor_comm stateRewatch e), (mach_state e stateRewatch S2 Hr2). change (stateRewatch =? 0) with false. cbv iota.
    cbn [w_count with_count]. rewrite dec8_pred by lia. change (stateRewatch =? stateRewatch) with true. cbv iota. done. }
  assert (∀ g, g ∉ grips_of x → current s p g → tok s g = 0%nat) as Hdrop.
  { intros g Hn (gr&Hg&Hcur). rewrite Ht in Hcur. injection Hcur as Hi. destruct (ri_gr _ _ J g gr Hg) as (y&Y1&Y2). rewrite <-Hi, Hx in Y1. injection Y1 as <-. by apply Y2. }
  split.
  - intros Hn. destruct (ends tr s l s' p Ho Hl Hs Hp Hn) as (g&a&c&El&Hcur). exists g, a, c. split_and!; try done.
    destruct (Hloop g a c El Hcur) as (_&_&Hpc&Hin&Htg&Htot&Hmax&Hs'). cbv zeta in Hs'.
    destruct (N.eqb_spec (w_count x - 1) 0) as [Hz|Hz].
    + intros (h&Hch&Hh). assert (rs_pc s ≠ PRead h) as Hpr by (rewrite Hpc; done).
      assert (tok (set_pc s PWait) h = 0%nat) as Hz0.
      { destruct (decide (h ∈ grips_of x)) as [Hhin|Hhin]; [apply (total_zero _ x); [lia|done]|]. pose proof (Hdrop h Hhin Hch) as D. rewrite (state_tok s g h Hpc) in D. lia. }
      apply tok_zero in Hz0 as (Z1&Z2&_). destruct Hh as [Hh|[Hh|Hh]]; [by apply Z1|by apply Z2|by apply Hpr].
    + exfalso. apply Hn. rewrite Hs'. exists i, (with_count x (w_count x - 1)). cbn [rs_tab rs_wds set_wd]. rewrite lookup_insert. split_and!; try done.
      change (w_filter (with_count x (w_count x - 1))) with (w_filter x). rewrite S4, (N.lor_comm stateRewatch e), (mach_state e stateRewatch S2 Hr2). done.
  - intros (g&a&c&El&Hcur&Hout). destruct (Hloop g a c El Hcur) as (_&_&Hpc&Hin&Htg&Htot&Hmax&Hs'). cbv zeta in Hs'.
    assert (total (set_pc s PWait) x = 0%nat) as Hz.
    { apply total_all_zero. intros h Hh. destruct (decide (tok (set_pc s PWait) h = 0%nat)) as [|Hk]; [done|]. exfalso. apply Hout. exists h. split.
      - destruct (ri_own _ _ J i x Hx) as [_ Hown]. destruct (Hown h Hh) as (gr&G1&G2). exists gr. split; [done|]. congruence.
      - destruct (tok_pos _ _ Hk) as [K|[K|[K|K]]]; [by left|right; by left|done|done]. }
    assert (w_count x - 1 = 0) as Hc by lia. rewrite Hc in Hs'. cbn [N.eqb] in Hs'.
    set (s1 := set_wd (set_pc s PWait) i (with_count x 0)) in *.
    assert (rs_wds s1 !! i = Some (with_count x 0)) as Hx1 by (apply lookup_insert).
    destruct (recreate_clear s1 i _ Hx1) as (x'&X'&F'). intros (j&y&T&Y&Fy). rewrite Hs' in T, Y.
    assert (j = i) as ->.
    { assert (rs_tab (recreate s1 true true i).1 = rs_tab s1) as E by (apply (recreate_frame s1 true true i (S i)); lia). rewrite E in T. change (rs_tab s1) with (rs_tab s) in T. congruence. }
    rewrite X' in Y. injection Y as <-. by apply Fy.
Qed.
