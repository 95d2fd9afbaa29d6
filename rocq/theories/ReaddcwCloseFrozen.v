(** * ReaddcwCloseFrozen: the directories in the table when Close of the Windows watcher
    has returned *)
From Verif Require Import Base Event Watchpoint WatchpointFacts Readdcw SpecReaddcw ReaddcwFacts ReaddcwLoop ReaddcwRun ReaddcwLife
  ReaddcwClose SpecReaddcwClose ReaddcwCloseFacts.
Local Open Scope N_scope.

(** ** What is outstanding belongs to younger entries *)
Definition tk (s : rstate) (g : nat) : Prop :=
  (∃ r, r ∈ rs_reads s ∧ r_grip r = g) ∨ g ∈ (rs_queue s).*1 ∨ rs_pc s = PRead g ∨ rs_pc s = PState g.
Definition newtok (n : nat) (s : rstate) : Prop := ∀ g, tk s g → ∃ gr, rs_grips s !! g = Some gr ∧ (n ≤ g_parent gr)%nat.
Definition own (s : rstate) (i : nat) : Prop := ∀ x g, rs_wds s !! i = Some x → g ∈ grips_of x → ∃ gr, rs_grips s !! g = Some gr ∧ g_parent gr = i.
Lemma nt_same n s s' : newtok n s → rs_grips s' = rs_grips s → (∀ g, tk s' g → tk s g) → newtok n s'.
Proof. intros H E K g Hg. rewrite E. apply H, K, Hg. Qed.
Lemma nt_grip n s g gr : newtok n s → (n ≤ g_parent gr)%nat → newtok n (set_grip s g gr).
Proof.
  intros H Hn h Hh. cbn [rs_grips set_grip]. destruct (decide (h = g)) as [->|Hne]; [rewrite lookup_insert; eauto|rewrite lookup_insert_ne by done].
  by apply H.
Qed.
Lemma nt_read n s ok g : newtok n s → (∀ gr, rs_grips s !! g = Some gr → (n ≤ g_parent gr)%nat) → newtok n (readDirChanges s ok g).
Proof.
  intros H Hn. unfold readDirChanges. destruct (rs_grips s !! g) as [gr|] eqn:Hg; [|done]. destruct (g_open gr && ok); [|done].
  intros h Hh. cbn [rs_grips set_io]. destruct (decide (h = g)) as [->|Hne]; [eauto|]. apply H. destruct Hh as [(r&Hr&<-)|Hh]; [|by right].
  cbn [rs_reads set_io] in Hr. apply elem_of_cons in Hr as [->|Hr]; [done|]. left. eauto.
Qed.
Lemma nt_close_grip n s g : newtok n s → newtok n (close_grip s g).
Proof.
  intros H. unfold close_grip. destruct (rs_grips s !! g) as [gr|] eqn:Hg; [|done]. destruct (g_open gr); [|done].
  assert (∀ h, tk (set_io (set_grip s g (Grip false (g_filter gr) (g_rec gr) (g_parent gr))) (filter (λ r, r_grip r ≠ g) (rs_reads s))
    (((λ r, (r_grip r, [])) <$> filter (λ r, r_grip r = g) (rs_reads s)) ++ rs_queue s)) h → tk s h) as K.
  { intros h [(r&Hr&<-)|[Hq|Hpc]].
    - left. cbn [rs_reads set_io] in Hr. apply elem_of_list_filter in Hr as [_ Hr]. eauto.
    - cbn [rs_queue set_io] in Hq. rewrite fmap_app in Hq. apply elem_of_app in Hq as [Hq|Hq]; [|right; by left].
      apply elem_of_list_fmap in Hq as ([h' l]&->&Hq). apply elem_of_list_fmap in Hq as (r&Er&Hr). injection Er as -> ->. apply elem_of_list_filter in Hr as [_ Hr]. left. eauto.
    - right. by right. }
  intros h Hh%K. cbn [rs_grips set_io set_grip]. destruct (decide (h = g)) as [->|Hne]; [|rewrite lookup_insert_ne by done; by apply H].
  rewrite lookup_insert. eexists. split; [done|]. destruct (H g Hh) as (gr'&G1&G2). rewrite Hg in G1. by injection G1 as <-.
Qed.
Lemma nt_close n x : ∀ s, newtok n s → newtok n (closeHandle s x).
Proof. unfold closeHandle. induction (grips_of x) as [|g l IH]; intros s H; [done|]. cbn [foldl]. by apply IH, nt_close_grip. Qed.
Lemma own_close s x i : own s i → own (closeHandle s x) i.
Proof.
  intros H y g Hy Hg. rewrite (proj1 (close_wds _ _)) in Hy. destruct (H y g Hy Hg) as (gr&G1&G2). rewrite (proj2 (closeHandle_gen s x)), G1.
  destruct (decide (g ∈ grips_of x)); [exists (shut gr)|exists gr]; done.
Qed.
Lemma close_next s x : rs_next (closeHandle s x) = rs_next s.
Proof. by destruct (closeHandle_gen s x) as [[] _]. Qed.
Lemma update_new n s ok i idx reset flag : (n ≤ i)%nat → newtok n s → own s i →
  let s' := (updateGrip s ok i idx reset flag).1 in newtok n s' ∧ own s' i ∧ (rs_next s ≤ rs_next s')%nat.
Proof.
  intros Hn H O. cbn zeta. unfold updateGrip. destruct (rs_wds s !! i) as [x|] eqn:Hx; [|done].
  assert (∀ y g, rs_wds s !! i = Some y → g ∈ grips_of y → g ∈ grips_of x) as Hu by (intros y g; rewrite Hx; by intros [= <-]).
  destruct reset; cbn [fst].
  { split_and!; [by apply (nt_same n s)| |done]. intros y g. cbn [rs_wds set_wd rs_grips]. rewrite lookup_insert. intros [= <-] [?|Hg]%grips_with; [done|by apply (O x)]. }
  assert (∀ gg k y, (rs_next s ≤ k)%nat → (∀ g, g ∈ grips_of y → g = gg ∨ g ∈ grips_of x) →
    let s' := set_wd (register (set_next s k) gg (Grip false flag (w_rec x) i)) i y in newtok n s' ∧ own s' i ∧ (rs_next s ≤ rs_next s')%nat) as Hreg.
  { intros gg k y Hk Hy. cbn zeta. unfold register. cbn [g_filter g_rec g_parent]. set (s0 := set_grip (set_next s k) gg (Grip true flag (w_rec x) i)).
    destruct (readDir_wds s0 true gg) as (W1&W2&W3&_). assert (newtok n s0) as N0 by (apply nt_grip; [by apply (nt_same n s)|done]). split_and!.
    - apply (nt_same n (readDirChanges s0 true gg)); [|done|done]. apply nt_read; [done|]. unfold s0. cbn [rs_grips set_grip]. rewrite lookup_insert. by intros gr [= <-].
    - intros z g. cbn [rs_wds rs_grips set_wd]. rewrite lookup_insert, W2. intros [= <-] Hg. unfold s0. cbn [rs_grips set_grip set_next].
      destruct (decide (g = gg)) as [->|Hne]; [rewrite lookup_insert; eauto|rewrite lookup_insert_ne by done]. destruct (Hy g Hg) as [?|Hg']; [done|]. by apply (O x).
    - cbn [rs_next set_wd]. by rewrite W3. }
  assert (∀ y : watched, newtok n (closeHandle s y) ∧ own (closeHandle s y) i ∧ (rs_next s ≤ rs_next (closeHandle s y))%nat) as Hcl.
  { intros y. split_and!; [by apply nt_close|by apply own_close|by rewrite close_next]. }
  destruct (the_grip x idx) as [g|] eqn:Hg.
  - assert (g ∈ grips_of x) as Hin by (apply grips_the; eauto). destruct ok; cbn [fst].
    + assert (∀ t, register (set_grip s g t) g (Grip false flag (w_rec x) i) = register (set_next s (rs_next s)) g (Grip false flag (w_rec x) i)) as E.
      { intros t. unfold register, readDirChanges, set_grip, set_io, set_next. cbn [rs_grips rs_wds rs_reads rs_queue rs_tab rs_next rs_pc rs_sent rs_panic g_filter g_rec g_parent].
        by rewrite !lookup_insert, insert_insert. }
      rewrite E. apply Hreg; [done|]. by right.
    + set (s1 := set_grip s g (Grip false flag (w_rec x) i)). assert (newtok n s1) as N1 by (by apply nt_grip).
      assert (own s1 i) as O1.
      { intros y h Hy Hh. unfold s1. cbn [rs_grips set_grip]. destruct (decide (h = g)) as [->|Hne]; [rewrite lookup_insert; eauto|rewrite lookup_insert_ne by done; by apply (O y)]. }
      split_and!; [by apply nt_close|by apply own_close|by rewrite close_next].
  - destruct ok; cbn [fst].
    + assert (w_rec (with_grip x idx (Some (rs_next s))) = w_rec x) as -> by (by destruct idx). apply Hreg; [lia|].
      intros h Hh. change (grips_of (with_count (with_grip x idx (Some (rs_next s))) (inc8 (w_count (with_grip x idx (Some (rs_next s))))))) with (grips_of (with_grip x idx (Some (rs_next s)))) in Hh.
      apply grips_with in Hh as [[= ->]|Hh]; [by left|by right].
    + apply Hcl.
Qed.
Lemma update_path s ok i idx reset flag x : rs_wds s !! i = Some x → ∃ x', rs_wds (updateGrip s ok i idx reset flag).1 !! i = Some x' ∧ w_path x' = w_path x.
Proof.
  intros Hx. unfold updateGrip. rewrite Hx. destruct reset; cbn [fst].
  { cbn [rs_wds set_wd]. rewrite lookup_insert. eexists. split; [done|]. by destruct idx. }
  destruct (the_grip x idx) as [g|], ok; cbn [fst]; rewrite ?(proj1 (close_wds _ _)); cbn [rs_wds set_wd set_grip]; rewrite ?lookup_insert; eauto.
  eexists. split; [done|]. by destruct idx.
Qed.
Lemma recreate_new n s ok0 ok1 i x : (n ≤ i)%nat → newtok n s → own s i → rs_wds s !! i = Some x →
  let s' := (recreate s ok0 ok1 i).1 in newtok n s' ∧ (rs_next s ≤ rs_next s')%nat ∧ ∃ x', rs_wds s' !! i = Some x' ∧ w_path x' = w_path x.
Proof.
  intros Hn H O Hx. cbn zeta. unfold recreate. rewrite Hx.
  destruct (update_new n s ok0 i false (w_filter x .&^ DN =? 0) (w_filter x .&^ DN) Hn H O) as (A1&A2&A3). destruct (update_path s ok0 i false (w_filter x .&^ DN =? 0) (w_filter x .&^ DN) x Hx) as (x1&X1&P1).
  destruct (updateGrip s ok0 i false _ _) as [s1 b1]. cbn [fst] in *. destruct b1; cbn [negb]; [|cbn [fst]; eauto].
  destruct (update_new n s1 ok1 i true (w_filter x .& dset =? 0) (w_filter x .| dirmarker) Hn A1 A2) as (B1&B2&B3). destruct (update_path s1 ok1 i true (w_filter x .& dset =? 0) (w_filter x .| dirmarker) x1 X1) as (x2&X2&P2).
  destruct (updateGrip s1 ok1 i true _ _) as [s2 b2]. cbn [fst] in *. destruct b2; cbn [negb].
  2: { cbn [fst]. split_and!; [done|lia|]. exists x2. split; [done|congruence]. }
  rewrite X2. cbn [fst]. split_and!; [by apply (nt_same n s2)|cbn [rs_next set_wd]; lia|]. cbn [rs_wds set_wd]. rewrite lookup_insert. eexists. split; [done|]. cbn. congruence.
Qed.

(** ** The invariant *)
Record frozen (F : gmap str nat) (n : nat) (s : rstate) : Prop := {
  fz_next : (n ≤ rs_next s)%nat;
  fz_tok : newtok n s;
  fz_F : ∀ p i, F !! p = Some i → (i < n)%nat ∧ rs_tab s !! p = Some i ∧ ∃ x, rs_wds s !! i = Some x ∧ mach x = stateCPClose;
  fz_tab : ∀ p i, rs_tab s !! p = Some i → F !! p = Some i ∨ (n ≤ i)%nat;
  fz_new : ∀ i x, rs_wds s !! i = Some x → (n ≤ i)%nat → F !! w_path x = None;
}.
Lemma fz_set F n s i x : frozen F n s → (∀ p, F !! p = Some i → mach x = stateCPClose) →
  (∀ x0, rs_wds s !! i = Some x0 → w_path x = w_path x0) → (is_Some (rs_wds s !! i) ∨ F !! w_path x = None) → frozen F n (set_wd s i x).
Proof.
  intros [A1 A2 A3 A4 A5] Hm Hp Hi. split; cbn [rs_next rs_tab rs_wds set_wd]; try done.
  - intros p j Hj. destruct (A3 p j Hj) as (H1&H2&y&Y1&Y2). split_and!; [done|done|]. destruct (decide (j = i)) as [->|Hne]; [rewrite lookup_insert; eauto|rewrite lookup_insert_ne by done; eauto].
  - intros j y. destruct (decide (j = i)) as [->|Hne]; [rewrite lookup_insert|rewrite lookup_insert_ne by done; apply A5]. intros [= <-] Hn.
    destruct Hi as [[x0 Hx0]|?]; [|done]. rewrite (Hp x0 Hx0). by apply (A5 i).
Qed.
Lemma fz_same F n s s' : frozen F n s → rs_next s' = rs_next s → rs_tab s' = rs_tab s → rs_wds s' = rs_wds s → newtok n s' → frozen F n s'.
Proof. intros [A1 A2 A3 A4 A5] E1 E2 E3 K. by split; rewrite ?E1, ?E2, ?E3. Qed.
Lemma fz_close F n s x : frozen F n s → frozen F n (closeHandle s x).
Proof. intros H. eapply fz_same; [exact H|apply close_next|apply (close_wds s x)|apply (close_wds s x)|apply nt_close, H]. Qed.
Lemma fz_not F n s i p : frozen F n s → (n ≤ i)%nat → F !! p = Some i → False.
Proof. intros H Hn Hp. destruct (fz_F _ _ _ H p i Hp). lia. Qed.
Lemma fz_recreate F n s ok0 ok1 i x : frozen F n s → own s i → rs_wds s !! i = Some x → (n ≤ i)%nat → frozen F n (recreate s ok0 ok1 i).1.
Proof.
  intros H O Hx Hn. destruct (recreate_new n s ok0 ok1 i x Hn (fz_tok _ _ _ H) O Hx) as (K1&K2&x'&X1&P1). pose proof (proj2 (recreate_frame s ok0 ok1 i (S i) ltac:(lia))) as KT.
  pose proof H as [A1 A2 A3 A4 A5]. split; [lia|done| | |].
  - intros p j Hj. destruct (A3 p j Hj) as (H1&H2&H3). assert (j ≠ i) as Hne by lia. rewrite KT, (proj1 (recreate_frame s ok0 ok1 i j Hne)). done.
  - rewrite KT. apply A4.
  - intros j y. destruct (decide (j = i)) as [->|Hne].
    + rewrite X1. intros [= <-] _. rewrite P1. by apply (A5 i x).
    + rewrite (proj1 (recreate_frame s ok0 ok1 i j Hne)). apply A5.
Qed.
Lemma ask_own tr s i : askinv tr s → own s i.
Proof. intros A x g. apply (ai_own _ _ A i x g). Qed.
Lemma nonState_some s p i x : nonState s p = Some (i, x) → rs_tab s !! p = Some i ∧ rs_wds s !! i = Some x ∧ mach x = 0.
Proof.
  unfold nonState. destruct (rs_tab s !! p) as [j|]; [|done]. destruct (rs_wds s !! j) as [y|] eqn:Hj; [|done]. destruct (nonzero (mach y)) eqn:E; [done|].
  intros [= <- <-]. split_and!; [done|done|]. by apply negb_false_iff, N.eqb_eq in E.
Qed.
Lemma fz_rdstep F n tr s l s' : askinv tr s → frozen F n s → rdstep s l s' → frozen F n s'.
Proof.
  intros A H Hs. destruct Hs as [q ok0 ok1 s' r Hq|g l l1 x l2 Hr Hg|g l l1 l2 gr wd Hpc Hq Hg Hw|g ok Hpc|g ok0 ok1 Hpc].
  - destruct q as [p e k|p old new k|p]; cbn [rd_request] in Hq.
    + unfold rd_watch in Hq. destruct (nonzero (e .&^ known_events)); [by apply pair_equal_spec in Hq as [<- _]|].
      destruct (rs_tab s !! p) as [i|] eqn:Ht.
      * destruct (rs_wds s !! i) as [x|] eqn:Hx; apply pair_equal_spec in Hq as [<- _]; [|done]. apply fz_set; [done| |rewrite Hx; by intros x0 [= <-]|left; eauto].
        intros p' Hp'. apply clear_unwatch. destruct (fz_F _ _ _ H p' i Hp') as (_&_&y&Y1&Y2). rewrite Hx in Y1. by injection Y1 as <-.
      * set (s1 := set_wd (set_next s (S (rs_next s))) (rs_next s) (Wd e k 0 p None None)) in Hq.
        assert (F !! p = None) as HF. { destruct (F !! p) as [i|] eqn:E; [|done]. destruct (fz_F _ _ _ H p i E) as (_&E2&_). congruence. }
        pose proof (fz_next _ _ _ H) as Hn. assert (frozen F n s1) as H1.
        { apply fz_set; [| | |by right].
          - destruct H as [A1 A2 A3 A4 A5]. split; try done. cbn [rs_next set_next]. lia.
          - intros p' Hp'. destruct (fz_not _ _ _ _ _ H Hn Hp').
          - cbn [rs_wds set_next]. intros x0 Hx0%(ai_wn _ _ A). lia. }
        assert (frozen F n (recreate s1 ok0 ok1 (rs_next s)).1) as H2.
        { eapply fz_recreate; [done| |apply lookup_insert|done]. intros x g. unfold s1. cbn [rs_wds set_wd]. rewrite lookup_insert. intros [= <-] Hg. by apply elem_of_nil in Hg. }
        destruct (recreate s1 ok0 ok1 (rs_next s)) as [s2 b2]. cbn [fst] in H2. destruct b2; apply pair_equal_spec in Hq as [<- _]; [|done].
        destruct H2 as [A1 A2 A3 A4 A5]. split; cbn [rs_next rs_wds rs_tab set_tab]; try done.
        -- intros p' i Hp'. rewrite lookup_insert_ne by congruence. by apply A3.
        -- intros p' i. destruct (decide (p' = p)) as [->|Hne]; [rewrite lookup_insert; intros [= <-]; by right|rewrite lookup_insert_ne by done; apply A4].
    + unfold rd_rewatch in Hq. destruct (nonzero (new .&^ known_events)); [by apply pair_equal_spec in Hq as [<- _]|].
      destruct (nonState s p) as [[i x]|] eqn:Hns; [|by apply pair_equal_spec in Hq as [<- _]]. apply nonState_some in Hns as (Ht&Hx&Hm).
      assert (∀ p', F !! p' = Some i → False) as HF. { intros p' Hp'. destruct (fz_F _ _ _ H p' i Hp') as (_&_&y&Y1&Y2). rewrite Hx in Y1. injection Y1 as <-. rewrite Hm in Y2. done. }
      destruct (nonzero _); [apply pair_equal_spec in Hq as [<- _]; by destruct H|].
      destruct ok0; apply pair_equal_spec in Hq as [<- _]; apply fz_close, fz_set; try done; try (intros p' Hp'; destruct (HF p' Hp')); try (rewrite Hx; by intros x0 [= <-]); left; eauto.
    + unfold rd_unwatch in Hq. destruct (nonState s p) as [[i x]|] eqn:Hns; [|by apply pair_equal_spec in Hq as [<- _]]. apply nonState_some in Hns as (Ht&Hx&Hm).
      assert (∀ p', F !! p' = Some i → False) as HF. { intros p' Hp'. destruct (fz_F _ _ _ H p' i Hp') as (_&_&y&Y1&Y2). rewrite Hx in Y1. injection Y1 as <-. rewrite Hm in Y2. done. }
      assert (frozen F n (set_wd s i (with_filter x (w_filter x .| stateUnwatch)))) as H1.
      { apply fz_set; [done|intros p' Hp'; destruct (HF p' Hp')|rewrite Hx; by intros x0 [= <-]|left; eauto]. }
      destruct ok0; [by apply pair_equal_spec in Hq as [<- _]|]. destruct ok1; apply pair_equal_spec in Hq as [<- _]; [|done].
      eapply fz_same; [exact H1|done..|]. intros g Hg. cbn [rs_grips set_io set_wd].
      assert (tk s g ∨ g ∈ grips_of x) as [Hg'|Hg'].
      { destruct Hg as [Hg|[Hg|Hg]]; [left; by left| |left; right; by right]. cbn [rs_queue set_io] in Hg. rewrite fmap_app in Hg. apply elem_of_app in Hg as [Hg|Hg]; [right|left; right; by left].
        apply elem_of_list_fmap in Hg as (y&->&Hy). apply elem_of_list_fmap in Hy as (h&->&Hh). done. }
      * by apply (fz_tok _ _ _ H).
      * destruct (ai_own _ _ A i x g Hx Hg') as (gr&G1&G2). exists gr. split; [done|]. rewrite G2. destruct (fz_tab _ _ _ H p i Ht) as [Hp|?]; [destruct (HF p Hp)|done].
  - eapply fz_same; [exact H|done..|]. eapply nt_same; [apply H|done|]. intros h [(y&Hy&<-)|[Hh|Hh]]; [left|..].
    + exists y. split; [|done]. cbn [rs_reads set_io] in Hy. rewrite Hr. apply elem_of_app in Hy as [?|?]; apply elem_of_app; [by left|right; by right].
    + cbn [rs_queue set_io fmap list_fmap fst] in Hh. apply elem_of_cons in Hh as [->|Hh]; [|right; by left]. left. exists x. split; [|done]. rewrite Hr. apply elem_of_app. right. by left.
    + right. by right.
  - eapply fz_same; [exact H|done..|]. eapply nt_same; [apply H|done|]. intros h [Hh|[Hh|Hh]]; [by left|..].
    + right. left. cbn [rs_queue set_io set_sent set_pc] in Hh. rewrite Hq, fmap_app, fmap_cons. rewrite fmap_app in Hh. apply elem_of_app in Hh as [?|?]; apply elem_of_app; [by left|right; by right].
    + right. left. cbn [rs_pc set_pc] in Hh. rewrite Hq, fmap_app, fmap_cons. destruct Hh as [[= <-]|[=]]. apply elem_of_app. right. by left.
  - destruct (readDir_wds s ok g) as (W1&W2&W3&W4). assert (newtok n (readDirChanges s ok g)) as K.
    { apply nt_read; [apply H|]. intros gr Hgr. destruct (fz_tok _ _ _ H g) as (gr'&G1&G2); [right; right; by left|]. rewrite Hgr in G1. by injection G1 as <-. }
    eapply fz_same; [exact H|cbn [rs_next rs_tab rs_wds set_pc]; congruence..|]. intros h Hh. cbn [rs_grips set_pc]. destruct Hh as [Hh|[Hh|Hh]].
    + apply K. by left.
    + apply K. right. by left.
    + cbn [rs_pc set_pc] in Hh. destruct Hh as [[=]|[= <-]]. rewrite W2. apply (fz_tok _ _ _ H). right. right. by left.
  - destruct (fz_tok _ _ _ H g) as (gr&G1&G2); [right; right; by right|]. assert (frozen F n (set_pc s PWait)) as H0.
    { eapply fz_same; [exact H|done..|]. eapply nt_same; [apply H|done|]. intros h [Hh|[Hh|[Hh|Hh]]]; [by left|right; by left|done|done]. }
    unfold loopstate. change (rs_grips (set_pc s PWait)) with (rs_grips s). rewrite G1. change (rs_wds (set_pc s PWait)) with (rs_wds s).
    destruct (rs_wds s !! g_parent gr) as [x|] eqn:Hx; [|done]. set (j := g_parent gr) in *. destruct (mach x =? 0); [done|]. set (x' := with_count x (dec8 (w_count x))).
    assert (frozen F n (set_wd (set_pc s PWait) j x')) as H1.
    { apply fz_set; [done|intros p' Hp'; destruct (fz_not _ _ _ _ _ H G2 Hp')| |left; cbn [rs_wds set_pc]; eauto]. cbn [rs_wds set_pc]. rewrite Hx. by intros x0 [= <-]. }
    destruct (w_count x' =? 0); [|done]. destruct (mach x =? stateRewatch).
    { eapply fz_recreate; [done| |apply lookup_insert|done]. intros y h. cbn [rs_wds set_wd]. rewrite lookup_insert. intros [= <-] Hh. by apply (ai_own _ _ A j x). }
    destruct (mach x =? stateUnwatch); [|destruct (mach x =? stateCPClose); [done|by destruct H1]].
    pose proof (fz_close F n _ x' H1) as [A1 A2 A3 A4 A5]. split; cbn [rs_next rs_wds rs_tab set_tab]; try done.
    + intros p i Hp. destruct (A3 p i Hp) as (B1&B2&B3). split_and!; [done| |done]. rewrite lookup_delete_ne; [done|].
      intros E. pose proof (fz_new _ _ _ H j x Hx G2) as HN. change (w_path x') with (w_path x) in E. rewrite E in HN. congruence.
    + intros p i [_ Hp]%lookup_delete_Some. by apply A4.
Qed.
Lemma nt_close_entry n s i : newtok n s → newtok n (close_entry s i).
Proof. intros H. unfold close_entry. destruct (rs_wds s !! i); [|done]. apply nt_close. by eapply nt_same. Qed.
Lemma nt_close_entries n l : ∀ s, newtok n s → newtok n (close_entries s l).
Proof. induction l as [|i l IH]; intros s H; [done|]. by apply IH, nt_close_entry. Qed.
Lemma fz_close_entries F n s l : frozen F n s → frozen F n (close_entries s l).
Proof.
  intros [A1 A2 A3 A4 A5]. destruct (close_entries_spec l s) as (K1&K2&K3&K4&K5&K6&K7&_). split; [by rewrite K2|by apply nt_close_entries| |by rewrite K1|].
  - intros p i Hp. destruct (A3 p i Hp) as (H1&H2&x&X1&X2). rewrite K1. split_and!; [done|done|]. destruct (decide (i ∈ l)) as [Hi|Hi]; [|rewrite K6 by done; eauto].
    destruct (K7 i x Hi X1) as (x'&Y1&Y2&_). eauto.
  - intros i x' Hx' Hn. destruct (decide (i ∈ l)) as [Hi|Hi]; [|rewrite K6 in Hx' by done; by apply (A5 i)].
    destruct (rs_wds s !! i) as [x|] eqn:Hx.
    + destruct (K7 i x Hi Hx) as (x2&Y1&_&Y3&_). rewrite Hx' in Y1. injection Y1 as <-. rewrite Y3. by apply (A5 i).
    + exfalso. clear - Hx Hx'. revert s Hx Hx'. induction l as [|j l IH]; intros s Hx Hx'; [cbn in Hx'; congruence|]. apply (IH (close_entry s j)); [|done].
      destruct (rs_wds s !! j) as [y|] eqn:Hj; [|unfold close_entry; by rewrite Hj]. destruct (close_entry_spec s j y Hj) as (_&->&_). rewrite lookup_insert_ne; [done|congruence].
Qed.
Lemma loopevent_dir dir f l : Forall (λ ev, re_dir ev = dir) (loopevent dir f l).
Proof.
  unfold loopevent. induction l as [|x l IH]; [constructor|]. rewrite bind_cons. apply Forall_app. split; [|done]. unfold send1. destruct (rd_decode f (fn_action x)) as [e se].
  destruct (_ && _); [constructor|]. destruct (e =? 0); [by repeat constructor|]. destruct (nonzero se); by repeat constructor.
Qed.
Lemma close_sent s x : rs_sent (closeHandle s x) = rs_sent s.
Proof. by destruct (closeHandle_gen s x) as [[] _]. Qed.
Lemma read_sent s ok g : rs_sent (readDirChanges s ok g) = rs_sent s.
Proof. unfold readDirChanges. destruct (rs_grips s !! g) as [gr|]; [destruct (g_open gr && ok)|]; done. Qed.
Lemma update_sent s ok i idx reset flag : rs_sent (updateGrip s ok i idx reset flag).1 = rs_sent s.
Proof.
  unfold updateGrip. destruct (rs_wds s !! i) as [x|]; [|done]. destruct reset; [done|].
  destruct (the_grip x idx) as [g|], ok; cbn [fst]; rewrite ?close_sent; try done; cbn [rs_sent set_wd]; unfold register; by rewrite read_sent.
Qed.
Lemma recreate_sent s ok0 ok1 i : rs_sent (recreate s ok0 ok1 i).1 = rs_sent s.
Proof.
  unfold recreate. destruct (rs_wds s !! i) as [x|]; [|done]. pose proof (update_sent s ok0 i false (w_filter x .&^ DN =? 0) (w_filter x .&^ DN)) as K1.
  destruct (updateGrip s ok0 i false _ _) as [s1 b1]. cbn [fst] in K1. destruct b1; cbn [negb]; [|done].
  pose proof (update_sent s1 ok1 i true (w_filter x .& dset =? 0) (w_filter x .| dirmarker)) as K2.
  destruct (updateGrip s1 ok1 i true _ _) as [s2 b2]. cbn [fst] in K2. destruct b2; cbn [negb]; [|cbn [fst]; congruence]. destruct (rs_wds s2 !! i); cbn [fst rs_sent set_wd]; congruence.
Qed.
Lemma sent_request s q ok0 ok1 s' r : rd_request s q ok0 ok1 = (s', r) → rs_sent s' = rs_sent s.
Proof.
  destruct q as [p e k|p old new k|p]; cbn [rd_request]; intros Hq.
  - unfold rd_watch in Hq. destruct (nonzero _); [by apply pair_equal_spec in Hq as [<- _]|]. destruct (rs_tab s !! p) as [i|].
    + destruct (rs_wds s !! i); by apply pair_equal_spec in Hq as [<- _].
    + destruct (recreate _ _ _ _) as [s2 b2] eqn:E. pose proof (recreate_sent (set_wd (set_next s (S (rs_next s))) (rs_next s) (Wd e k 0 p None None)) ok0 ok1 (rs_next s)) as K. rewrite E in K. cbn [fst] in K.
      destruct b2; apply pair_equal_spec in Hq as [<- _]; exact K.
  - unfold rd_rewatch in Hq. destruct (nonzero _); [by apply pair_equal_spec in Hq as [<- _]|]. destruct (nonState s p) as [[i x]|]; [|by apply pair_equal_spec in Hq as [<- _]].
    destruct (nonzero _); [by apply pair_equal_spec in Hq as [<- _]|]. destruct ok0; apply pair_equal_spec in Hq as [<- _]; by rewrite close_sent.
  - unfold rd_unwatch in Hq. destruct (nonState s p) as [[i x]|]; [|by apply pair_equal_spec in Hq as [<- _]]. destruct ok0; [by apply pair_equal_spec in Hq as [<- _]|].
    destruct ok1; by apply pair_equal_spec in Hq as [<- _].
Qed.
(** What a step sends is not for the frozen directories. *)
Lemma sent_rdstep F n s l s' : frozen F n s → rdstep s l s' → ∃ out, rs_sent s' = rs_sent s ++ out ∧ Forall (λ ev, F !! re_dir ev = None) out.
Proof.
  intros H Hs. destruct Hs as [q ok0 ok1 s' r Hq|g l l1 x l2 Hr Hg|g l l1 l2 gr wd Hpc Hq Hg Hw|g ok Hpc|g ok0 ok1 Hpc].
  - exists []. rewrite app_nil_r. split; [by eapply sent_request|constructor].
  - exists []. by rewrite app_nil_r.
  - eexists. split; [done|]. destruct (fz_tok _ _ _ H g) as (gr'&G1&G2).
    { right. left. rewrite Hq, fmap_app, fmap_cons. apply elem_of_app. right. by left. }
    rewrite Hg in G1. injection G1 as <-. pose proof (fz_new _ _ _ H _ _ Hw G2) as HN. eapply Forall_impl; [apply loopevent_dir|]. intros ev E. cbn beta in E. by rewrite E.
  - exists []. rewrite app_nil_r. split; [apply read_sent|constructor].
  - exists []. rewrite app_nil_r. split; [|constructor]. unfold loopstate. change (rs_grips (set_pc s PWait)) with (rs_grips s). destruct (rs_grips s !! g) as [gr|]; [|done].
    change (rs_wds (set_pc s PWait)) with (rs_wds s). destruct (rs_wds s !! g_parent gr) as [x|]; [|done]. destruct (_ =? 0); [done|]. destruct (_ =? 0); [|done].
    destruct (_ =? stateRewatch); [by rewrite recreate_sent|]. destruct (_ =? stateUnwatch); [cbn [rs_sent set_tab]; by rewrite close_sent|by destruct (_ =? stateCPClose)].
Qed.
Lemma frozen_cstep F n tr s l s' : askinv tr (c_rs s) → frozen F n (c_rs s) → cstep s l s' →
  frozen F n (c_rs s') ∧ ∃ out, rs_sent (c_rs s') = rs_sent (c_rs s) ++ out ∧ Forall (λ ev, F !! re_dir ev = None) out.
Proof.
  intros A H Hs. destruct Hs as [l r Hp Hr Hl|p e k Hi Hc|Hc Hst|order err Hc Hst Ho|err Hc Hp|err Hc|n' m Hp Hpc Hk Hwg|err Hc Hwg]; cbn zeta; cbn [c_rs with_closer];
    try (split; [done|exists []; by rewrite app_nil_r]).
  - split; [by eapply fz_rdstep|by eapply sent_rdstep].
  - split; [by apply fz_close_entries|]. destruct (close_entries_spec order (c_rs s)) as (_&_&_&K&_). exists []. by rewrite app_nil_r.
  - split; [|exists []; by rewrite app_nil_r]. eapply fz_same; [exact H|done..|]. intros g [(r&Hr&_)|[Hr|Hr]].
    + cbn in Hr. by apply elem_of_nil in Hr.
    + cbn in Hr. by apply elem_of_nil in Hr.
    + cbn [rs_pc set_io] in Hr. rewrite Hpc in Hr. by destruct Hr.
Qed.
Lemma frozen_csteps F n tr0 s tr s' : askinv (rlabels tr0) (c_rs s) → frozen F n (c_rs s) → csteps s tr s' →
  frozen F n (c_rs s') ∧ ∃ out, rs_sent (c_rs s') = rs_sent (c_rs s) ++ out ∧ Forall (λ ev, F !! re_dir ev = None) out.
Proof.
  intros A H Hs. induction Hs as [s|s tr s1 l s2 Hs IH Hl]; [split; [done|exists []; by rewrite app_nil_r]|].
  destruct (IH A H) as (H1&o1&E1&F1). destruct (frozen_cstep F n _ s1 l s2 (csteps_ask _ _ _ _ A Hs) H1 Hl) as (H2&o2&E2&F2). split; [done|].
  exists (o1 ++ o2). split; [rewrite E2, E1; by rewrite app_assoc|by apply Forall_app].
Qed.
Lemma frozen_begin tr0 s : askinv tr0 (c_rs s) → closing s → c_port s = false → frozen (rs_tab (c_rs s)) (rs_next (c_rs s)) (c_rs s).
Proof.
  intros A C Hp. destruct (cg_none _ C Hp) as (N1&N2&N3). split; [done| | |by left|].
  - intros g [(r&Hr&_)|[Hr|Hr]]; [rewrite N1 in Hr; by apply elem_of_nil in Hr|rewrite N2 in Hr; by apply elem_of_nil in Hr|rewrite N3 in Hr; by destruct Hr].
  - intros p i Hi. destruct (cg_tab _ C p i Hi) as (x&X1&X2). split_and!; [by apply (ai_wn _ _ A i x)|done|eauto].
  - intros i x Hx Hn. apply (ai_wn _ _ A) in Hx. lia.
Qed.
Lemma frozen_busy F n s p : frozen F n s → is_Some (F !! p) → ¬ busy s p.
Proof.
  intros H [i Hi] (g&gr&wd&Ht&Hg&Hw&<-). destruct (fz_tok _ _ _ H g Ht) as (gr'&G1&G2). rewrite Hg in G1. injection G1 as <-.
  rewrite (fz_new _ _ _ H _ _ Hw G2) in Hi. done.
Qed.
