(** * ReaddcwLoop: invariant of the Windows watcher along orderly executions *)
From Verif Require Import Base Event Watchpoint WatchpointFacts Readdcw SpecReaddcw ReaddcwFacts.
Local Open Scope N_scope.
Notation DN := FileNotifyChangeDirName.
Notation dset := (FileNotifyChangeDirName .| Create readdcw .| Remove readdcw).

(** ** Tokens: reads pending, completions waiting or being processed *)
Definition closed (s : rstate) (g : nat) : bool := match rs_grips s !! g with Some gr => negb (g_open gr) | None => true end.
Definition tok (s : rstate) (g : nat) : nat :=
  (length (filter (λ r, r_grip r = g) (rs_reads s)) + length (filter (λ x, x.1 = g) (rs_queue s)) +
   match rs_pc s with PWait => 0 | PRead h => if decide (h = g) then 1 else 0 | PState h => if decide (h = g) then b2n (closed s g) else 0 end)%nat.
Definition total (s : rstate) (x : watched) : nat := sum_list (tok s <$> grips_of x).

(** ** Phases of a watched directory *)
Definition fits (s : rstate) (i : nat) (x : watched) (e : N) (r : bool) : Prop :=
  ∃ st, (st = 0 ∨ st = stateRewatch) ∧
   match w_g0 x with Some g => e .&^ DN ≠ 0 ∧ rs_grips s !! g = Some (Grip true ((e .| st) .&^ DN) r i) | None => e .&^ DN = 0 end ∧
   match w_g1 x with Some g => e .& dset ≠ 0 ∧ rs_grips s !! g = Some (Grip true (e .| st .| dirmarker) r i) | None => e .& dset = 0 end.
Definition own (s : rstate) (i : nat) (x : watched) : Prop :=
  NoDup (grips_of x) ∧ ∀ g, g ∈ grips_of x → ∃ gr, rs_grips s !! g = Some gr ∧ g_parent gr = i.
Definition settled (W : str → option (N * bool)) s i x : Prop := ∃ e r,
  W (w_path x) = Some (e, r) ∧ requestable e ∧ e ≠ 0 ∧ w_filter x = e ∧ w_rec x = r ∧ fits s i x e r ∧
  (∀ g, g ∈ grips_of x → tok s g = 1%nat) ∧ w_count x = N.of_nat (length (grips_of x)).
Definition rewatching (W : str → option (N * bool)) s x : Prop := ∃ e r,
  W (w_path x) = Some (e, r) ∧ requestable e ∧ e .&^ DN ≠ 0 ∧ w_filter x = stateRewatch .| e ∧ w_rec x = r ∧
  (∀ g, g ∈ grips_of x → closed s g = true ∧ (tok s g ≤ 1)%nat) ∧ w_count x = N.of_nat (total s x) ∧ (1 ≤ total s x)%nat.
Definition unwatching (W : str → option (N * bool)) s x : Prop := ∃ e,
  W (w_path x) = None ∧ requestable e ∧ w_filter x = e .| stateUnwatch ∧
  (∀ g, g ∈ grips_of x → closed s g = false ∧ (1 ≤ tok s g ≤ 2)%nat) ∧ 1 <= w_count x ∧ w_count x <= 2.
Definition removed s x : Prop := ∃ e k,
  requestable e ∧ w_filter x = e .| stateUnwatch ∧ (∀ g, g ∈ grips_of x → closed s g = true) ∧
  w_count x = (256 - N.of_nat k) mod 256 ∧ (k + total s x ≤ 10)%nat.
Record rdinv (W : str → option (N * bool)) (s : rstate) : Prop := {
  ri_panic : rs_panic s = false;
  ri_tab : ∀ p i, rs_tab s !! p = Some i → ∃ x, rs_wds s !! i = Some x ∧ w_path x = p;
  ri_want : ∀ p, rs_tab s !! p = None → W p = None;
  ri_own : ∀ i x, rs_wds s !! i = Some x → own s i x;
  ri_live : ∀ i x, rs_wds s !! i = Some x → rs_tab s !! w_path x = Some i → settled W s i x ∨ rewatching W s x ∨ unwatching W s x;
  ri_dead : ∀ i x, rs_wds s !! i = Some x → rs_tab s !! w_path x ≠ Some i → removed s x;
  ri_gr : ∀ g gr, rs_grips s !! g = Some gr → ∃ x, rs_wds s !! g_parent gr = Some x ∧
    (g ∉ grips_of x → g_open gr = false ∧ tok s g = 0%nat);
  ri_wn : ∀ i x, rs_wds s !! i = Some x → (i < rs_next s)%nat;
  ri_gn : ∀ g gr, rs_grips s !! g = Some gr → (g < rs_next s)%nat;
  ri_tok : ∀ g, tok s g ≠ 0%nat → is_Some (rs_grips s !! g);
}.
Lemma rdinv_init W : (∀ p, W p = None) → rdinv W rs_init.
Proof. intros HW. split; try done. Qed.

(** Steps that concern one directory leave the others alone. *)
Lemma total_ext s s' x : (∀ g, g ∈ grips_of x → tok s' g = tok s g) → total s' x = total s x.
Proof. intros H. unfold total. f_equal. apply list_fmap_ext. intros i g Hg. apply elem_of_list_lookup_2 in Hg. by apply H. Qed.
Section frame.
Context (W W' : str → option (N * bool)) (s s' : rstate) (j : nat) (x : watched).
Context (Hg : ∀ g, g ∈ grips_of x → rs_grips s' !! g = rs_grips s !! g ∧ tok s' g = tok s g).
Lemma own_frame : own s j x → own s' j x.
Proof. intros [H1 H2]. split; [done|]. intros g K. rewrite (proj1 (Hg g K)). auto. Qed.
Lemma closed_frame g : g ∈ grips_of x → closed s' g = closed s g.
Proof. intros K. unfold closed. by rewrite (proj1 (Hg g K)). Qed.
Lemma total_frame : total s' x = total s x.
Proof. apply total_ext. intros g K. apply Hg, K. Qed.
Lemma settled_frame : W' (w_path x) = W (w_path x) → settled W s j x → settled W' s' j x.
Proof.
  intros HW (e&r&H1&H2&H3&H4&H5&(st&F0&F1&F2)&H6&H7). exists e, r. rewrite HW. split_and!; try done.
  - exists st. split; [done|]. unfold grips_of in Hg. split.
    + destruct (w_g0 x) as [g|]; [|done]. by rewrite (proj1 (Hg g ltac:(apply elem_of_app; left; left))).
    + destruct (w_g1 x) as [g|]; [|done]. by rewrite (proj1 (Hg g ltac:(apply elem_of_app; right; left))).
  - intros g K. rewrite (proj2 (Hg g K)). auto.
Qed.
Lemma rewatching_frame : W' (w_path x) = W (w_path x) → rewatching W s x → rewatching W' s' x.
Proof.
  intros HW (e&r&H1&H2&H3&H4&H5&H6&H7&H8). exists e, r. rewrite HW, total_frame. split_and!; try done.
  - intros g K. rewrite (closed_frame g K), (proj2 (Hg g K)). auto.
Qed.
Lemma unwatching_frame : W' (w_path x) = W (w_path x) → unwatching W s x → unwatching W' s' x.
Proof.
  intros HW (e&H1&H2&H3&H4&H5&H6). exists e. rewrite HW. split_and!; try done; 
  intros g K; rewrite ?(closed_frame g K), ?(proj2 (Hg g K)); by apply H4.
Qed.
Lemma removed_frame : removed s x → removed s' x.
Proof.
  intros (e&k&H1&H2&H3&H4&H5). exists e, k. rewrite total_frame. split_and!; try done. intros g K. rewrite (closed_frame g K). auto.
Qed.
End frame.
Lemma rdinv_one W W' s s' i x' :
  rdinv W s → rs_panic s' = false →
  (∀ p, p ≠ w_path x' → rs_tab s' !! p = rs_tab s !! p ∧ W' p = W p) →
  rs_wds s' = <[i := x']> (rs_wds s) →
  (rs_tab s !! w_path x' = None ∨ rs_tab s !! w_path x' = Some i) ∧
    (rs_tab s' !! w_path x' = Some i ∧ (settled W' s' i x' ∨ rewatching W' s' x' ∨ unwatching W' s' x') ∨
     rs_tab s' !! w_path x' = None ∧ W' (w_path x') = None ∧ removed s' x') ∨
  rs_tab s !! w_path x' ≠ Some i ∧ rs_tab s' !! w_path x' = rs_tab s !! w_path x' ∧ W' (w_path x') = W (w_path x') ∧ removed s' x' →
  own s' i x' →
  (∀ g gr, rs_grips s !! g = Some gr → g_parent gr ≠ i → rs_grips s' !! g = Some gr ∧ tok s' g = tok s g) →
  (∀ g gr, rs_grips s' !! g = Some gr → g_parent gr = i ∧ (g ∉ grips_of x' → g_open gr = false ∧ tok s' g = 0%nat) ∨ rs_grips s !! g = Some gr ∧ g_parent gr ≠ i) →
  (rs_next s ≤ rs_next s')%nat → (i < rs_next s')%nat → (∀ g gr, rs_grips s' !! g = Some gr → (g < rs_next s')%nat) →
  (∀ g, tok s' g ≠ 0%nat → is_Some (rs_grips s' !! g)) →
  (∀ x, rs_wds s !! i = Some x → w_path x = w_path x') →
  rdinv W' s'.
Proof.
  intros [J1 J2 J3 J4 J5 J6 J7 J8 J9 J10] Hp Ht Hwd Hi Hown Hfr Hnew Hn1 Hn2 Hn3 Htok Hpath.
  assert (∀ j x, j ≠ i → rs_wds s !! j = Some x → ∀ g, g ∈ grips_of x → rs_grips s' !! g = rs_grips s !! g ∧ tok s' g = tok s g) as Hframe.
  { intros j x Hj Hx g Hg. destruct (J4 j x Hx) as [_ K]. destruct (K g Hg) as (gr&G1&G2). rewrite G1. apply Hfr; [done|]. congruence. }
  assert (∀ j x, rs_wds s' !! j = Some x → j = i ∧ x = x' ∨ j ≠ i ∧ rs_wds s !! j = Some x) as Hcase.
  { intros j x. rewrite Hwd. destruct (decide (j = i)) as [->|Hne]; [rewrite lookup_insert|rewrite lookup_insert_ne by done].
    - intros [= ->]. by left.
    - by right. }
  split.
  - done.
  - intros p j Hpj. rewrite Hwd. destruct (decide (p = w_path x')) as [->|Hne].
    + destruct Hi as [[_ [[K _]|[K _]]]|(K1&K2&_)].
      * rewrite K in Hpj. injection Hpj as <-. rewrite lookup_insert. eauto.
      * congruence.
      * rewrite K2 in Hpj. destruct (decide (j = i)) as [->|Hji]; [done|]. rewrite lookup_insert_ne by done. by apply J2.
    + rewrite (proj1 (Ht p Hne)) in Hpj. destruct (J2 p j Hpj) as (x&X1&X2).
      destruct (decide (j = i)) as [->|Hji].
      * exfalso. apply Hne. rewrite <-(Hpath x X1). done.
      * rewrite lookup_insert_ne by done. eauto.
  - intros p Hpj. destruct (decide (p = w_path x')) as [->|Hne].
    + destruct Hi as [[_ [[K _]|(_&K&_)]]|(K1&K2&K3&_)]; [congruence|done|]. rewrite K3. apply J3. by rewrite <-K2.
    + destruct (Ht p Hne) as [T1 T2]. rewrite T2. apply J3. by rewrite <-T1.
  - intros j x [[-> ->]|[Hne Hx]]%Hcase; [done|]. eapply own_frame; [by eapply Hframe|by apply J4].
  - intros j x [[-> ->]|[Hne Hx]]%Hcase Htab.
    + destruct Hi as [[_ [[_ K]|[K _]]]|(K1&K2&_)]; [done|congruence|]. by rewrite K2 in Htab.
    + assert (rs_tab s !! w_path x = Some j ∧ W' (w_path x) = W (w_path x)) as [T1 T2].
      { destruct (decide (w_path x = w_path x')) as [Heq|Hnp].
        - rewrite Heq in *. destruct Hi as [[_ [[K _]|[K _]]]|(K1&K2&K3&_)]; [congruence|congruence|]. by rewrite <-K2.
        - destruct (Ht _ Hnp) as [T1 T2]. by rewrite <-T1. }
      destruct (J5 j x Hx T1) as [K|[K|K]]; [left; eapply settled_frame|right; left; eapply rewatching_frame|right; right; eapply unwatching_frame];
        try exact K; try done; by eapply Hframe.
  - intros j x [[-> ->]|[Hne Hx]]%Hcase Htab.
    + destruct Hi as [[_ [[K _]|(_&_&K)]]|(K1&K2&_&K)]; [congruence|done|done].
    + eapply removed_frame; [by eapply Hframe|]. apply (J6 j x Hx). intros T. apply Htab.
      destruct (decide (w_path x = w_path x')) as [Heq|Hnp].
      * rewrite Heq in *. destruct Hi as [[[K|K] _]|(K1&K2&_)]; [congruence|congruence|]. by rewrite K2.
      * by rewrite (proj1 (Ht _ Hnp)).
  - intros g gr Hg. rewrite Hwd. destruct (Hnew g gr Hg) as [[K1 K2]|[K1 K2]].
    + exists x'. rewrite K1, lookup_insert. split; [done|]. exact K2.
    + rewrite lookup_insert_ne by done. destruct (J7 g gr K1) as (x&X1&X2). exists x. split; [done|]. intros K.
      rewrite (proj2 (Hfr g gr K1 K2)). auto.
  - intros j x [[-> ->]|[Hne Hx]]%Hcase; [done|]. apply J8 in Hx. lia.
  - done.
  - done.
Qed.
(** Steps that only move tokens. *)
Lemma rdinv_same W s s' :
  rdinv W s → rs_panic s' = false → rs_tab s' = rs_tab s → rs_wds s' = rs_wds s → rs_grips s' = rs_grips s → rs_next s' = rs_next s →
  (∀ g, tok s' g = tok s g) → rdinv W s'.
Proof.
  intros [J1 J2 J3 J4 J5 J6 J7 J8 J9 J10] H1 H2 H3 H4 H5 H6.
  split; rewrite ?H2, ?H3, ?H4, ?H5; try done.
  - intros i x Hx. eapply own_frame; [|by apply J4]. intros; split; [by rewrite H4|done].
  - intros i x Hx Ht. destruct (J5 i x Hx Ht) as [K|[K|K]]; [left; eapply settled_frame|right; left; eapply rewatching_frame|right; right; eapply unwatching_frame];
      try exact K; try done; intros; (split; [by rewrite H4|done]).
  - intros i x Hx Ht. eapply removed_frame; [|by eapply J6]. intros; split; [by rewrite H4|done].
  - intros g gr Hg. destruct (J7 g gr Hg) as (x&X1&X2). exists x. split; [done|]. intros K. rewrite H6. auto.
  - intros g Hg. rewrite H6 in Hg. auto.
Qed.
Lemma want_req tr q ok0 ok1 (r : bool) p : want (tr ++ [LReq q ok0 ok1 r]) p =
  if r then if decide (p = req_path q) then match q with QWatch _ e k => Some (e, k) | QRewatch _ _ new k => Some (new, k) | QUnwatch _ => None end else want tr p
  else want tr p.
Proof. unfold want. rewrite foldl_app. cbn [foldl want1]. by destruct r. Qed.
Lemma want_other tr l p : (∀ q a c r, l ≠ LReq q a c r) → want (tr ++ [l]) p = want tr p.
Proof. intros H. unfold want. rewrite foldl_app. cbn [foldl]. unfold want1. destruct l; try done. by destruct (H q ok0 ok1 res). Qed.

(** ** Moving tokens *)
Lemma len_filter_cons {A} (Q : A → Prop) `{∀ x, Decision (Q x)} x l : length (filter Q (x :: l)) = ((if decide (Q x) then 1 else 0) + length (filter Q l))%nat.
Proof. rewrite filter_cons. by destruct (decide (Q x)). Qed.
Lemma data_tok s g l l1 x l2 h : rs_reads s = l1 ++ x :: l2 → r_grip x = g → tok (set_io s (l1 ++ l2) ((g, l) :: rs_queue s)) h = tok s h.
Proof.
  intros Hr Hg. unfold tok, closed, set_io. cbn [rs_reads rs_queue rs_pc rs_grips]. rewrite Hr, !filter_app, !app_length, !len_filter_cons. cbn [fst].
  rewrite Hg. lia.
Qed.
Lemma take_tok s g l l1 l2 e h : rs_pc s = PWait → rs_queue s = l1 ++ (g, l) :: l2 →
  tok (set_pc (set_sent (set_io s (rs_reads s) (l1 ++ l2)) e) (PRead g)) h = tok s h.
Proof.
  intros Hpc Hq. unfold tok, closed, set_io, set_pc, set_sent. cbn [rs_reads rs_queue rs_pc rs_grips]. rewrite Hpc, Hq, !filter_app, !app_length, !len_filter_cons. cbn [fst]. lia.
Qed.
Lemma read_tok s g h : rs_pc s = PRead g → tok (set_pc (readDirChanges s true g) (PState g)) h = tok s h.
Proof.
  intros Hpc. unfold tok, closed, readDirChanges. rewrite Hpc.
  destruct (rs_grips s !! g) as [gr|] eqn:Hg; [destruct (g_open gr) eqn:Ho|]; cbn [andb]; unfold set_io, set_pc; cbn [rs_reads rs_queue rs_pc rs_grips];
    rewrite ?len_filter_cons; cbn [r_grip]; destruct (decide (g = h)) as [<-|]; rewrite ?Hg, ?Ho; cbn [b2n negb]; lia.
Qed.

(** ** Closing handles *)
Definition shut (gr : grip) : grip := Grip false (g_filter gr) (g_rec gr) (g_parent gr).
Record same_but_io (s s' : rstate) : Prop := {
  sb_tab : rs_tab s' = rs_tab s; sb_wds : rs_wds s' = rs_wds s; sb_next : rs_next s' = rs_next s; sb_pc : rs_pc s' = rs_pc s;
  sb_sent : rs_sent s' = rs_sent s; sb_panic : rs_panic s' = rs_panic s }.
Lemma same_but_io_refl s : same_but_io s s. Proof. done. Qed.
Lemma same_but_io_trans s1 s2 s3 : same_but_io s1 s2 → same_but_io s2 s3 → same_but_io s1 s3.
Proof. intros [] []. split; congruence. Qed.
Lemma close_grip_spec s g : (rs_pc s ≠ PState g) →
  same_but_io s (close_grip s g) ∧
  (∀ h, rs_grips (close_grip s g) !! h = if decide (h = g) then shut <$> rs_grips s !! h else rs_grips s !! h) ∧
  (∀ h, tok (close_grip s g) h = tok s h).
Proof.
  intros Hpc. unfold close_grip. destruct (rs_grips s !! g) as [gr|] eqn:Hg; [destruct (g_open gr) eqn:Ho|].
  - split_and!; [done|..].
    + intros h. unfold set_io, set_grip. cbn [rs_grips]. destruct (decide (h = g)) as [->|]; [by rewrite lookup_insert, Hg|by rewrite lookup_insert_ne].
    + intros h. unfold tok, set_io, set_grip. cbn [rs_reads rs_queue rs_pc rs_grips].
      assert (length (filter (λ r, r_grip r = h) (filter (λ r, r_grip r ≠ g) (rs_reads s))) +
              length (filter (λ x : nat * list fninfo, x.1 = h) ((λ r, (r_grip r, [])) <$> filter (λ r, r_grip r = g) (rs_reads s))) =
              length (filter (λ r, r_grip r = h) (rs_reads s)))%nat as Hl.
      { induction (rs_reads s) as [|r l IH]; [done|]. rewrite !filter_cons.
        destruct (decide (r_grip r = g)) as [E|E]; destruct (decide (r_grip r = h)) as [E'|E'];
          rewrite ?(decide_True (P := r_grip r ≠ g)), ?(decide_False (P := r_grip r ≠ g)) by (by auto); cbn [fmap list_fmap];
          rewrite ?filter_cons; cbn [fst]; rewrite ?(decide_True (P := r_grip r = h)), ?(decide_False (P := r_grip r = h)) by done; cbn [length]; lia. }
      rewrite filter_app, app_length. f_equal; [lia|]. destruct (rs_pc s) as [|k|k]; try done.
      destruct (decide (k = h)) as [<-|]; [|done]. unfold closed. cbn [rs_grips]. rewrite lookup_insert_ne; [done|]. congruence.
  - split_and!; [done| |done]. intros h. destruct (decide (h = g)) as [->|]; [|done]. rewrite Hg. cbn. f_equal. destruct gr. cbn in *. by subst.
  - split_and!; [done| |done]. intros h. destruct (decide (h = g)) as [->|]; [|done]. by rewrite Hg.
Qed.
Lemma close_all_spec l : ∀ s, (∀ g, g ∈ l → rs_pc s ≠ PState g) →
  same_but_io s (foldl close_grip s l) ∧
  (∀ h, rs_grips (foldl close_grip s l) !! h = if decide (h ∈ l) then shut <$> rs_grips s !! h else rs_grips s !! h) ∧
  (∀ h, tok (foldl close_grip s l) h = tok s h).
Proof.
  induction l as [|g l IH]; intros s Hpc; cbn [foldl]; [done|].
  destruct (close_grip_spec s g) as (S1&G1&T1); [apply Hpc; by left|].
  destruct (IH (close_grip s g)) as (S2&G2&T2).
  { intros h Hh. rewrite (sb_pc _ _ S1). apply Hpc. by right. }
  split_and!; [by eapply same_but_io_trans| |by intros h; rewrite T2, T1].
  intros h. rewrite G2, G1. destruct (decide (h = g)) as [->|Hne].
  - rewrite (decide_True (P := g ∈ g :: l)) by (by left). destruct (decide (g ∈ l)); [|done]. by destruct (rs_grips s !! g).
  - destruct (decide (h ∈ l)) as [Hl|Hl]; [rewrite decide_True by (by right)|rewrite decide_False by (by intros [?|?]%elem_of_cons)]; done.
Qed.
Lemma closeHandle_spec s x : (∀ g, g ∈ grips_of x → rs_pc s ≠ PState g) →
  same_but_io s (closeHandle s x) ∧
  (∀ h, rs_grips (closeHandle s x) !! h = if decide (h ∈ grips_of x) then shut <$> rs_grips s !! h else rs_grips s !! h) ∧
  (∀ h, tok (closeHandle s x) h = tok s h).
Proof. apply close_all_spec. Qed.

(** ** Opening handles *)
Definition regs_state (s : rstate) (i : nat) (x' : watched) (g : nat) (gr : grip) (n : nat) : rstate :=
  RS (rs_tab s) (<[i := x']> (rs_wds s)) (<[g := gr]> (rs_grips s)) n (Read g (rd_encode (g_filter gr)) (g_rec gr) :: rs_reads s) (rs_queue s) (rs_pc s) (rs_sent s) (rs_panic s).
Lemma updateGrip_spec s i x idx flag : rs_wds s !! i = Some x →
  let g := default (rs_next s) (the_grip x idx) in
  updateGrip s true i idx false flag =
    (regs_state s i (with_count (with_grip x idx (Some g)) (inc8 (w_count x))) g (Grip true flag (w_rec x) i)
      (if the_grip x idx then rs_next s else S (rs_next s)), true).
Proof.
  intros Hx. unfold updateGrip. rewrite Hx. destruct (the_grip x idx) as [g|] eqn:Hg; cbn [default from_option id].
  - unfold register, readDirChanges, set_grip, set_wd, set_io. cbn [rs_grips rs_wds rs_reads rs_queue rs_tab rs_next rs_pc rs_sent rs_panic g_filter g_rec g_parent].
    rewrite lookup_insert. cbn [g_open andb g_filter g_rec]. unfold regs_state. cbn [rs_grips rs_wds rs_reads rs_queue rs_tab rs_next rs_pc rs_sent rs_panic g_filter g_rec g_parent].
    rewrite insert_insert. do 3 f_equal. unfold with_count, with_grip. destruct x, idx; cbn in *; by rewrite Hg.
  - unfold register, readDirChanges, set_grip, set_wd, set_io, set_next. cbn [rs_grips rs_wds rs_reads rs_queue rs_tab rs_next rs_pc rs_sent rs_panic g_filter g_rec g_parent].
    rewrite lookup_insert. cbn [g_open andb g_filter g_rec]. unfold regs_state. cbn [rs_grips rs_wds rs_reads rs_queue rs_tab rs_next rs_pc rs_sent rs_panic g_filter g_rec g_parent].
    do 3 f_equal; destruct x, idx; done.
Qed.
Lemma tok_regs s i x' g gr n h : tok s g = 0%nat → (∀ k, rs_pc s = PState k → k ≠ g) → tok (regs_state s i x' g gr n) h = if decide (h = g) then 1%nat else tok s h.
Proof.
  intros Ht Hpc. unfold tok, regs_state, closed in *. cbn [rs_reads rs_queue rs_pc rs_grips]. rewrite len_filter_cons. cbn [r_grip].
  destruct (decide (h = g)) as [->|Hne].
  - rewrite decide_True by done. destruct (rs_pc s) as [|k|k] eqn:E; [lia|lia|]. rewrite decide_False by (by apply Hpc). rewrite decide_False in Ht by (by apply Hpc). lia.
  - rewrite decide_False by done. destruct (rs_pc s) as [|k|k]; [lia|lia|]. by rewrite lookup_insert_ne.
Qed.
Lemma pc_closed s g k : tok s g = 0%nat → closed s g = true → rs_pc s = PState k → k ≠ g.
Proof. intros Ht Hc Hpc ->. unfold tok in Ht. rewrite Hpc, decide_True, Hc in Ht by done. cbn in Ht. lia. Qed.
Definition mid (s s' : rstate) : Prop :=
  rs_tab s' = rs_tab s ∧ rs_pc s' = rs_pc s ∧ rs_sent s' = rs_sent s ∧ rs_panic s' = rs_panic s ∧ (rs_next s ≤ rs_next s')%nat.
Lemma updateGrip_ok s i x idx reset flag :
  rs_wds s !! i = Some x →
  (∀ g, the_grip x idx = Some g → closed s g = true ∧ tok s g = 0%nat ∧ (g < rs_next s)%nat) →
  (∀ g gr, rs_grips s !! g = Some gr → (g < rs_next s)%nat) → (∀ g, tok s g ≠ 0%nat → is_Some (rs_grips s !! g)) →
  ∃ s' x', updateGrip s true i idx reset flag = (s', true) ∧ mid s s' ∧ rs_wds s' = <[i := x']> (rs_wds s) ∧
    w_filter x' = w_filter x ∧ w_rec x' = w_rec x ∧ w_path x' = w_path x ∧ the_grip x' (negb idx) = the_grip x (negb idx) ∧
    if reset then the_grip x' idx = None ∧ w_count x' = w_count x ∧ rs_grips s' = rs_grips s ∧ (∀ h, tok s' h = tok s h)
    else ∃ g, the_grip x' idx = Some g ∧ (the_grip x idx = Some g ∨ (the_grip x idx = None ∧ g = rs_next s)) ∧ w_count x' = inc8 (w_count x) ∧
      (g < rs_next s')%nat ∧ rs_grips s' = <[g := Grip true flag (w_rec x) i]> (rs_grips s) ∧ (∀ h, tok s' h = if decide (h = g) then 1%nat else tok s h).
Proof.
  intros Hx Hg Hn Ht. destruct reset.
  - exists (set_wd s i (with_grip x idx None)), (with_grip x idx None). unfold updateGrip. rewrite Hx. split_and!; try done; by destruct idx.
  - rewrite (updateGrip_spec s i x idx flag Hx). set (g := default (rs_next s) (the_grip x idx)).
    assert (tok s g = 0%nat ∧ closed s g = true) as [T C].
    { unfold g. destruct (the_grip x idx) as [k|] eqn:E; cbn [default from_option id]; [by destruct (Hg k eq_refl) as (?&?&?)|].
      assert (rs_grips s !! rs_next s = None) as HN.
      { destruct (rs_grips s !! rs_next s) as [gr|] eqn:E'; [|done]. apply Hn in E'. lia. }
      split; [|unfold closed; by rewrite HN]. destruct (decide (tok s (rs_next s) = 0%nat)) as [|K]; [done|]. apply Ht in K as [? K]. congruence. }
    eexists _, _. split; [done|]. split_and!; [..|exists g; split_and!]; try done; cbn [rs_next regs_state].
    + split_and!; try done. cbn [rs_next regs_state]. destruct (the_grip x idx); lia.
    + by destruct idx.
    + by destruct idx.
    + by destruct idx.
    + by destruct idx.
    + by destruct idx.
    + unfold g. destruct (the_grip x idx); [by left|by right].
    + unfold g. destruct (the_grip x idx) as [k|] eqn:E; cbn [default from_option id]; [by destruct (Hg k eq_refl) as (?&?&?)|lia].
    + intros h. apply tok_regs; [done|]. intros k. by apply pc_closed.
Qed.
Lemma grips_the x g : g ∈ grips_of x ↔ ∃ idx, the_grip x idx = Some g.
Proof.
  unfold grips_of. rewrite elem_of_app. split.
  - intros [H|H]; [exists false|exists true]; cbn [the_grip]; [destruct (w_g0 x)|destruct (w_g1 x)]; cbn [ogrip] in H; set_solver.
  - intros [[] H]; cbn [the_grip] in H; rewrite H; cbn [ogrip]; set_solver.
Qed.
Lemma requestable_incl e : requestable e → incl_ev e known_events.
Proof. intros H i Hi. exact (H i Hi). Qed.
Lemma req_disj e m : requestable e → known_events .& m = 0 → disj_ev e m.
Proof. intros H Hm i Hi. apply land_zero_disj in Hm. apply Hm. by apply (requestable_incl e H). Qed.
Lemma lor_eq_0 a c : a .| c = 0 → a = 0 ∧ c = 0.
Proof. intros H. apply N.lor_eq_0_iff in H. done. Qed.
Lemma mach_clear e st : requestable e → incl_ev st onlyMachineStates → (e .| st) .&^ onlyMachineStates = e.
Proof.
  intros He Hst. pose proof (req_disj e onlyMachineStates He ltac:(by vm_compute)) as K. apply has_ext. intros i. rewrite has_ldiff, has_lor.
  specialize (K i). specialize (Hst i). tauto.
Qed.
Lemma mach_state e st : requestable e → incl_ev st onlyMachineStates → (e .| st) .& onlyMachineStates = st.
Proof.
  intros He Hst. pose proof (req_disj e onlyMachineStates He ltac:(by vm_compute)) as K. apply has_ext. intros i. rewrite has_land, has_lor.
  specialize (K i). specialize (Hst i). tauto.
Qed.
Lemma mach_dset e st m : incl_ev st onlyMachineStates → m .& onlyMachineStates = 0 → (e .| st) .& m = e .& m.
Proof.
  intros Hst Hm. apply land_zero_disj in Hm. apply has_ext. intros i. rewrite !has_land, has_lor. specialize (Hm i). specialize (Hst i). tauto.
Qed.
Lemma st_incl st : st = 0 ∨ st = stateRewatch → incl_ev st onlyMachineStates.
Proof. intros [->| ->]; apply land_eq_incl; by vm_compute. Qed.
Lemma st_file e st : (st = 0 ∨ st = stateRewatch ∧ e .&^ DN ≠ 0) → ((e .| st) .&^ DN =? 0) = (e .&^ DN =? 0).
Proof.
  intros [->|[-> H]]; [by rewrite N.lor_0_r|]. transitivity false; [|symmetry]; apply N.eqb_neq; [|done]. intros K. apply H. apply has_ext. intros i.
  split; [|by intros ?%has_0]. intros Hi. rewrite <-K. rewrite has_ldiff in *. rewrite has_lor. tauto.
Qed.
Lemma recreate_ok s i x e st :
  rs_wds s !! i = Some x → w_filter x = e .| st → requestable e → (st = 0 ∨ st = stateRewatch ∧ e .&^ DN ≠ 0) → w_count x = 0 →
  NoDup (grips_of x) → (∀ g, g ∈ grips_of x → closed s g = true ∧ tok s g = 0%nat ∧ ∃ gr, rs_grips s !! g = Some gr ∧ g_parent gr = i) →
  (∀ g gr, rs_grips s !! g = Some gr → (g < rs_next s)%nat) → (∀ g, tok s g ≠ 0%nat → is_Some (rs_grips s !! g)) →
  ∃ s' x', recreate s true true i = (s', true) ∧ mid s s' ∧ rs_wds s' = <[i := x']> (rs_wds s) ∧
    w_filter x' = e ∧ w_rec x' = w_rec x ∧ w_path x' = w_path x ∧ w_count x' = N.of_nat (length (grips_of x')) ∧ fits s' i x' e (w_rec x) ∧ own s' i x' ∧
    (∀ g, g ∈ grips_of x' → tok s' g = 1%nat ∧ (g ∈ grips_of x ∨ rs_grips s !! g = None)) ∧
    (∀ g, g ∉ grips_of x' → tok s' g = tok s g ∧ rs_grips s' !! g = rs_grips s !! g) ∧
    (∀ g gr, rs_grips s' !! g = Some gr → (g < rs_next s')%nat).
Proof.
  intros Hx HF He Hst Hc Hnd Hgs Hn Htk. unfold recreate. rewrite Hx, HF, st_file by done.
  destruct (updateGrip_ok s i x false (e .&^ DN =? 0) ((e .| st) .&^ DN)) as (s1&x1&U1&(M1&M2&M3&M4&M5)&W1&F1&R1&P1&O1&K1); [done| |done|done|].
  { intros g Hg. destruct (Hgs g) as (?&?&gr&G&_); [apply grips_the; eauto|]. eauto. }
  rewrite U1. cbn [negb].
  assert (incl_ev st onlyMachineStates) as Hinc by (apply st_incl; tauto).
  rewrite (mach_dset e st dset Hinc) by (by vm_compute).
  assert (∀ g, the_grip x true = Some g → the_grip x false = Some g → False) as Hdist.
  { intros g H1 H2. unfold grips_of in Hnd. cbn [the_grip] in H1, H2. rewrite H1, H2 in Hnd. cbn in Hnd. apply NoDup_cons in Hnd as [Hnd _]. apply Hnd. by left. }
  assert (∀ g, the_grip x false = Some g → (g < rs_next s)%nat) as Hlt0.
  { intros g Hg. destruct (Hgs g) as (?&?&gr&G&_); [apply grips_the; eauto|]. eauto. }
  assert (∀ g, the_grip x true = Some g → (g < rs_next s)%nat) as Hlt1.
  { intros g Hg. destruct (Hgs g) as (?&?&gr&G&_); [apply grips_the; eauto|]. eauto. }
  (* the grips other than the one opened first *)
  assert (∀ g, the_grip x1 false ≠ Some g → rs_grips s1 !! g = rs_grips s !! g ∧ tok s1 g = tok s g) as Hsame1.
  { intros g Hg. destruct (e .&^ DN =? 0).
    - destruct K1 as (K1&_&K2&K3). by rewrite K2, K3.
    - destruct K1 as (g1&K1&_&_&_&K2&K3). assert (g ≠ g1) by congruence. rewrite K2, K3, lookup_insert_ne, decide_False by done. done. }
  assert (∀ g, the_grip x true = Some g → the_grip x1 false ≠ Some g) as Hd1.
  { intros g Hg Hg'. destruct (e .&^ DN =? 0).
    - destruct K1 as (K1&_). congruence.
    - destruct K1 as (g1&K1&[K2|[K2 K3]]&_).
      + apply (Hdist g); [done|]. congruence.
      + apply Hlt1 in Hg. assert (g = g1) by congruence. lia. }
  destruct (updateGrip_ok s1 i x1 true (e .& dset =? 0) (e .| st .| dirmarker)) as (s2&x2&U2&(M6&M7&M8&M9&M10)&W2&F2&R2&P2&O2&K3).
  { by rewrite W1, lookup_insert. }
  { intros g Hg. cbn [negb] in O1. rewrite O1 in Hg. pose proof (Hsame1 g (Hd1 g Hg)) as [G1 G2]. unfold closed. rewrite G1, G2.
    destruct (Hgs g) as (?&?&_); [apply grips_the; eauto|]. split_and!; [done|done|]. apply Hlt1 in Hg. lia. }
  { intros g gr Hg. destruct (decide (the_grip x1 false = Some g)) as [Hg1|Hg1].
    - destruct (e .&^ DN =? 0); [destruct K1 as [K1 _]; congruence|]. destruct K1 as (g1&K1&_&_&K2&_). assert (g = g1) as -> by congruence. done.
    - rewrite (proj1 (Hsame1 g Hg1)) in Hg. apply Hn in Hg. lia. }
  { intros g Hg. destruct (decide (the_grip x1 false = Some g)) as [Hg1|Hg1].
    - destruct (e .&^ DN =? 0); [destruct K1 as [K1 _]; congruence|]. destruct K1 as (g1&K1&_&_&_&K2&_). assert (g = g1) as -> by congruence. rewrite K2, lookup_insert. eauto.
    - destruct (Hsame1 g Hg1) as [G1 G2]. rewrite G1. apply Htk. by rewrite <-G2. }
  rewrite U2. cbn [negb]. rewrite W2, lookup_insert. cbn [negb] in *.
  set (x' := with_filter x2 (w_filter x2 .&^ onlyMachineStates)). exists (set_wd s2 i x'), x'.
  assert (∀ h, tok (set_wd s2 i x') h = tok s2 h) as Htok by done.
  assert (rs_grips (set_wd s2 i x') = rs_grips s2) as Hgr by done.
  assert (the_grip x' false = the_grip x1 false) as T0 by (by rewrite <-O2).
  assert (the_grip x' true = the_grip x2 true) as T1 by done.
  (* what the second registration leaves alone *)
  assert (∀ g, the_grip x2 true ≠ Some g → rs_grips s2 !! g = rs_grips s1 !! g ∧ tok s2 g = tok s1 g) as Hsame2.
  { intros g Hg. destruct (e .& dset =? 0).
    - destruct K3 as (_&_&K3&K4). by rewrite K3, K4.
    - destruct K3 as (g1&K3&_&_&_&K4&K5). assert (g ≠ g1) by congruence. rewrite K4, K5, lookup_insert_ne, decide_False by done. done. }
  assert (∀ g, the_grip x1 false = Some g → the_grip x2 true = Some g → False) as Hd2.
  { intros g Hg1 Hg2. destruct (e .& dset =? 0); [destruct K3 as [K3 _]; congruence|]. destruct K3 as (g2&K3&K4&_). assert (g = g2) as <- by congruence.
    destruct K4 as [K4|[K4 ->]]; [apply (Hd1 g); [congruence|done]|].
    destruct (e .&^ DN =? 0); [destruct K1 as [K1 _]; congruence|]. destruct K1 as (g1&K1&_&_&K2&_). assert (rs_next s1 = g1) by congruence. lia. }
  assert (∀ g, the_grip x1 false = Some g → e .&^ DN ≠ 0 ∧ rs_grips s2 !! g = Some (Grip true ((e .| st) .&^ DN) (w_rec x) i) ∧ tok s2 g = 1%nat ∧
    (g ∈ grips_of x ∨ rs_grips s !! g = None) ∧ (g < rs_next s2)%nat) as Hf0.
  { intros g Hg. destruct (N.eqb_spec (e .&^ DN) 0); [destruct K1 as [K1 _]; congruence|]. destruct K1 as (g1&K1&K5&K6&K7&K8&K9). assert (g = g1) as <- by congruence.
    destruct (Hsame2 g) as [S1 S2]; [intros ?; by eapply Hd2|]. rewrite S1, S2, K8, K9, lookup_insert, decide_True by done. split_and!; try done; [|lia].
    destruct K5 as [K5|[K5 ->]]; [left; apply grips_the; eauto|right]. destruct (rs_grips s !! rs_next s) as [gr|] eqn:E; [|done]. apply Hn in E. lia. }
  assert (∀ g, the_grip x2 true = Some g → e .& dset ≠ 0 ∧ rs_grips s2 !! g = Some (Grip true (e .| st .| dirmarker) (w_rec x) i) ∧ tok s2 g = 1%nat ∧
    (g ∈ grips_of x ∨ rs_grips s !! g = None) ∧ (g < rs_next s2)%nat) as Hf1.
  { intros g Hg. destruct (N.eqb_spec (e .& dset) 0); [destruct K3 as [K3 _]; congruence|]. destruct K3 as (g1&K3&K5&K6&K7&K8&K9). assert (g = g1) as <- by congruence.
    rewrite K8, K9, lookup_insert, decide_True, R1 by done. split_and!; try done.
    destruct K5 as [K5|[K5 ->]]; [left; apply grips_the; exists true; congruence|right]. destruct (rs_grips s !! rs_next s1) as [gr|] eqn:E; [|done]. apply Hn in E. lia. }
  assert (∀ g, g ∉ grips_of x' → the_grip x1 false ≠ Some g ∧ the_grip x2 true ≠ Some g) as Hout.
  { intros g Hg. split; intros K; apply Hg, grips_the; [exists false|exists true]; congruence. }
  split_and!; try done.
  - unfold mid. cbn [rs_tab rs_pc rs_sent rs_panic rs_next set_wd]. split_and!; try congruence. lia.
  - cbn [rs_wds set_wd]. by rewrite W2, W1, !insert_insert.
  - unfold x'. cbn [w_filter with_filter]. rewrite F2, F1, HF. by apply mach_clear.
  - unfold x'. cbn [w_rec with_filter]. congruence.
  - unfold x'. cbn [w_path with_filter]. congruence.
  - unfold grips_of. change (w_g0 x') with (the_grip x' false). change (w_g1 x') with (the_grip x' true). rewrite T0, T1, app_length.
    change (w_count x') with (w_count x2).
    assert (w_count x1 = N.of_nat (length (ogrip (the_grip x1 false)))) as C1.
    { destruct (e .&^ DN =? 0); [destruct K1 as (K1&K2&_)|destruct K1 as (g1&K1&_&K2&_)]; by rewrite K1, K2, Hc. }
    destruct (e .& dset =? 0); [destruct K3 as (K3&K4&_)|destruct K3 as (g1&K3&_&K4&_)]; rewrite K3, K4, C1; cbn [ogrip length].
    + by rewrite Nat.add_0_r.
    + by destruct (the_grip x1 false).
  - exists st. split; [tauto|]. rewrite Hgr. change (w_g0 x') with (the_grip x' false). change (w_g1 x') with (the_grip x' true). rewrite T0, T1. split.
    + destruct (the_grip x1 false) as [g|] eqn:E.
      * by destruct (Hf0 g eq_refl) as (?&?&_).
      * destruct (N.eqb_spec (e .&^ DN) 0) as [Hz|]; [done|]. destruct K1 as (g1&K1&_). congruence.
    + destruct (the_grip x2 true) as [g|] eqn:E.
      * by destruct (Hf1 g eq_refl) as (?&?&_).
      * destruct (N.eqb_spec (e .& dset) 0) as [Hz|]; [done|]. destruct K3 as (g1&K3&_). congruence.
  - split.
    + unfold grips_of. change (w_g0 x') with (the_grip x' false). change (w_g1 x') with (the_grip x' true). rewrite T0, T1.
      destruct (the_grip x1 false) as [g|] eqn:E; destruct (the_grip x2 true) as [h|] eqn:E'; cbn [ogrip app]; try apply NoDup_nil_2; try apply NoDup_singleton.
      apply NoDup_cons. split; [|apply NoDup_singleton]. intros ->%elem_of_list_singleton. by apply (Hd2 h).
    + intros g [[] Hg]%grips_the; rewrite Hgr.
      * rewrite T1 in Hg. destruct (Hf1 g Hg) as (_&K&_). eauto.
      * rewrite T0 in Hg. destruct (Hf0 g Hg) as (_&K&_). eauto.
  - intros g [[] Hg]%grips_the; rewrite Htok.
    + rewrite T1 in Hg. destruct (Hf1 g Hg) as (_&_&K&K'&_). eauto.
    + rewrite T0 in Hg. destruct (Hf0 g Hg) as (_&_&K&K'&_). eauto.
  - intros g [Hg1 Hg2]%Hout. rewrite Htok, Hgr. destruct (Hsame2 g Hg2) as [-> ->]. destruct (Hsame1 g Hg1) as [-> ->]. done.
  - intros g gr. rewrite Hgr. cbn [rs_next set_wd]. intros Hg.
    destruct (decide (the_grip x1 false = Some g)) as [E|E]; [by destruct (Hf0 g E) as (_&_&_&_&?)|].
    destruct (decide (the_grip x2 true = Some g)) as [E'|E']; [by destruct (Hf1 g E') as (_&_&_&_&?)|].
    rewrite (proj1 (Hsame2 g E')), (proj1 (Hsame1 g E)) in Hg. apply Hn in Hg. lia.
Qed.

(** ** Requests *)
Lemma mid_wd s i x : mid s (set_wd s i x). Proof. split_and!; try done; cbn; lia. Qed.
Lemma grips_len x : (length (grips_of x) ≤ 2)%nat.
Proof. unfold grips_of. rewrite app_length. destruct (w_g0 x), (w_g1 x); cbn; lia. Qed.
Lemma fits_some s i x e r : fits s i x e r → e ≠ 0 → (1 ≤ length (grips_of x))%nat.
Proof.
  intros (st&_&F1&F2) He. unfold grips_of. rewrite app_length. destruct (w_g0 x), (w_g1 x); cbn [ogrip length]; try lia.
  exfalso. apply He. apply has_ext. intros i0. split; [|by intros ?%has_0]. intros Hi. destruct (has_dec DN i0) as [Hd|Hd].
  - rewrite <-F2. apply has_land. split; [done|]. rewrite !has_lor. tauto.
  - rewrite <-F1. by apply has_ldiff.
Qed.
Lemma fits_open s i x e r g : fits s i x e r → g ∈ grips_of x → closed s g = false.
Proof.
  intros (st&_&F1&F2) Hg. unfold grips_of in Hg. apply elem_of_app in Hg as [Hg|Hg]; unfold closed.
  - destruct (w_g0 x) as [h|]; cbn [ogrip] in Hg; [|by apply elem_of_nil in Hg]. apply elem_of_list_singleton in Hg as ->. by destruct F1 as [_ ->].
  - destruct (w_g1 x) as [h|]; cbn [ogrip] in Hg; [|by apply elem_of_nil in Hg]. apply elem_of_list_singleton in Hg as ->. by destruct F2 as [_ ->].
Qed.
Lemma sum_cons (n : nat) l : sum_list (n :: l) = (n + sum_list l)%nat. Proof. done. Qed.
Lemma total_const s x n : (∀ g, g ∈ grips_of x → tok s g = n) → total s x = (length (grips_of x) * n)%nat.
Proof.
  unfold total. induction (grips_of x) as [|g l IH]; intros H; [done|]. rewrite fmap_cons, sum_cons. cbn [length].
  rewrite (H g) by (by left). rewrite IH; [lia|]. intros h Hh. apply H. by right.
Qed.
Lemma total_le s x n : (∀ g, g ∈ grips_of x → (tok s g ≤ n)%nat) → (total s x ≤ length (grips_of x) * n)%nat.
Proof.
  unfold total. induction (grips_of x) as [|g l IH]; intros H; [done|]. rewrite fmap_cons, sum_cons. cbn [length].
  specialize (H g ltac:(by left)) as H1. specialize (IH ltac:(intros h Hh; apply H; by right)). lia.
Qed.
Lemma total_zero s x g : total s x = 0%nat → g ∈ grips_of x → tok s g = 0%nat.
Proof.
  unfold total. induction (grips_of x) as [|h l IH]; intros H Hg; [by apply elem_of_nil in Hg|]. rewrite fmap_cons, sum_cons in H.
  apply elem_of_cons in Hg as [->|Hg]; [lia|]. apply IH; [lia|done].
Qed.
Lemma total_dec s s' x g : NoDup (grips_of x) → g ∈ grips_of x → tok s g = S (tok s' g) → (∀ h, h ≠ g → tok s h = tok s' h) → total s x = S (total s' x).
Proof.
  unfold total. induction (grips_of x) as [|h l IH]; intros Hnd Hg H1 H2; [by apply elem_of_nil in Hg|].
  apply NoDup_cons in Hnd as [Hh Hnd]. rewrite !fmap_cons, !sum_cons. apply elem_of_cons in Hg as [->|Hg].
  - rewrite H1. assert (tok s <$> l = tok s' <$> l) as ->; [|lia]. apply list_fmap_ext. intros i k Hk. apply elem_of_list_lookup_2 in Hk. apply H2. by intros ->.
  - rewrite (H2 h) by (by intros ->). rewrite IH by done. lia.
Qed.
Lemma rdinv_want W W' s : (∀ p, W' p = W p) → rdinv W s → rdinv W' s.
Proof.
  intros HW [J1 J2 J3 J4 J5 J6 J7 J8 J9 J10]. split; try done.
  - intros p Hp. rewrite HW. auto.
  - intros i x Hx Ht. destruct (J5 i x Hx Ht) as [K|[K|K]]; [left; eapply settled_frame|right; left; eapply rewatching_frame|right; right; eapply unwatching_frame];
      try exact K; try done.
Qed.

Lemma watch_inv tr s p e r s' res : rdinv (want tr) s → requestable e → e ≠ 0 → rs_tab s !! p = None →
  rd_watch s true true p e r = (s', res) → rdinv (want (tr ++ [LReq (QWatch p e r) true true res])) s'.
Proof.
  intros J He He0 Ht. unfold rd_watch. rewrite (proj2 (known_requestable e) He). cbn [nonzero N.eqb negb]. rewrite Ht.
  set (i := rs_next s). set (x := Wd e r 0 p None None). set (s1 := set_wd (set_next s (S i)) i x).
  destruct (recreate_ok s1 i x e 0) as (s2&x'&R&(M1&M2&M3&M4&M5)&W1&F1&R1&P1&C1&Fi&Ow&Kin&Kout&Kn).
  { apply lookup_insert. }
  { by rewrite N.lor_0_r. }
  { done. } { by left. } { done. } { apply NoDup_nil_2. }
  { intros g Hg. by apply elem_of_nil in Hg. }
  { intros g gr Hg. apply (ri_gn _ _ J) in Hg. cbn. lia. }
  { intros g Hg. by apply (ri_tok _ _ J) in Hg. }
  rewrite R. intros [= <- <-].
  assert (w_path x' = p) as Hp by done.
  assert (∀ g, g ∈ grips_of x' → rs_grips s !! g = None) as Hfresh.
  { intros g Hg. destruct (Kin g Hg) as [_ [K|K]]; [by apply elem_of_nil in K|done]. }
  eapply (rdinv_one _ _ s _ i x'); [exact J|..]; cbn [rs_panic rs_tab rs_wds rs_grips rs_next set_tab].
  - rewrite M4. apply (ri_panic _ _ J).
  - intros q Hq. rewrite Hp in Hq. rewrite lookup_insert_ne by done. rewrite M1. split; [done|]. rewrite want_req. by rewrite decide_False.
  - rewrite W1. unfold s1. cbn [rs_wds set_wd set_next]. by rewrite insert_insert.
  - left. split; [left; by rewrite Hp|]. left. rewrite Hp, lookup_insert. split; [done|]. left. exists e, r. rewrite Hp, want_req. cbn [req_path]. rewrite decide_True by done.
    split_and!; try done. intros g Hg. by apply Kin.
  - done.
  - intros g gr Hg Hne. destruct (decide (g ∈ grips_of x')) as [Hin|Hin]; [by rewrite (Hfresh g Hin) in Hg|]. destruct (Kout g Hin) as [K1 K2]. rewrite K2. split; [done|]. exact K1.
  - intros g gr Hg. destruct (decide (g ∈ grips_of x')) as [Hin|Hin].
    + left. split; [|done]. destruct Ow as [_ Ow]. destruct (Ow g Hin) as (gr'&G1&G2). rewrite G1 in Hg. by injection Hg as <-.
    + right. rewrite (proj2 (Kout g Hin)) in Hg. split; [done|]. destruct (ri_gr _ _ J g gr Hg) as (y&Y&_). apply (ri_wn _ _ J) in Y. unfold i. lia.
  - unfold s1 in M5. cbn in M5. lia.
  - unfold s1 in M5. cbn in M5. lia.
  - exact Kn.
  - intros g Hg. destruct (decide (g ∈ grips_of x')) as [Hin|Hin].
    + destruct Ow as [_ Ow]. destruct (Ow g Hin) as (gr&->&_). eauto.
    + destruct (Kout g Hin) as [K1 K2]. rewrite K2. apply (ri_tok _ _ J). change (tok s1 g) with (tok s g) in K1. rewrite <-K1. exact Hg.
  - intros y Hy. apply (ri_wn _ _ J) in Hy. unfold i in Hy. lia.
Qed.

Lemma settled_of W s p i x : rdinv W s → nonState s p = Some (i, x) → rs_tab s !! p = Some i ∧ rs_wds s !! i = Some x ∧ w_path x = p ∧ settled W s i x.
Proof.
  intros J. unfold nonState. destruct (rs_tab s !! p) as [j|] eqn:Hj; [|done]. destruct (rs_wds s !! j) as [y|] eqn:Hy; [|done].
  destruct (nonzero (w_filter y .& onlyMachineStates)) eqn:Hf; [done|]. intros [= <- <-].
  destruct (ri_tab _ _ J p j Hj) as (y'&Y1&Y2). rewrite Hy in Y1. injection Y1 as <-. split_and!; try done.
  destruct (ri_live _ _ J j y Hy) as [K|[K|K]]; [by rewrite Y2|done|exfalso..].
  - destruct K as (e&r&_&He&_&HF&_). rewrite HF, N.lor_comm, mach_state in Hf; [done|done|]. apply land_eq_incl; by vm_compute.
  - destruct K as (e&_&He&HF&_). rewrite HF, mach_state in Hf; [done|done|]. apply land_eq_incl; by vm_compute.
Qed.
Lemma rewatch_inv tr s p old new r s' res : rdinv (want tr) s →
  (∀ g gr wd, rs_pc s = PState g → rs_grips s !! g = Some gr → rs_wds s !! g_parent gr = Some wd → w_path wd ≠ p) →
  requestable new → new .&^ DN ≠ 0 → (∀ e k, want tr p = Some (e, k) → old = e) →
  rd_rewatch s true p old new r = (s', res) → ∀ a c, rdinv (want (tr ++ [LReq (QRewatch p old new r) a c res])) s'.
Proof.
  intros J Hpc Hn Hn0 Hold Hs a c. unfold rd_rewatch in Hs. rewrite (proj2 (known_requestable new) Hn) in Hs. cbn [nonzero N.eqb negb] in Hs.
  destruct (nonState s p) as [[i x]|] eqn:Hns.
  2: { injection Hs as <- <-. eapply rdinv_want; [|exact J]. intros q. by rewrite want_req. }
  destruct (settled_of _ _ _ _ _ J Hns) as (Ht&Hx&Hp&(e&k&S1&S2&S3&S4&S5&S6&S7&S8)).
  assert (N.lxor (w_filter x .& (onlyNotifyChanges .| onlyNGlobalEvents)) old = 0) as Hxor.
  { rewrite Hp in S1. rewrite S4, (Hold e k S1). apply N.lxor_eq_0_iff. apply has_ext. intros j. rewrite has_land. split; [tauto|]. intros Hj. split; [done|].
    assert (incl_ev known_events (onlyNotifyChanges .| onlyNGlobalEvents)) as K by (apply land_eq_incl; by vm_compute). by apply K, (requestable_incl e). }
  rewrite Hxor in Hs. cbn [nonzero N.eqb negb] in Hs. apply pair_equal_spec in Hs as [<- <-].
  set (x1 := Wd (stateRewatch .| new) r (w_count x) (w_path x) (w_g0 x) (w_g1 x)). set (s1 := set_wd s i x1).
  destruct (ri_own _ _ J i x Hx) as [Hnd Hown].
  destruct (closeHandle_spec s1 x1) as ([B1 B2 B3 B4 B5 B6]&G&T).
  { intros g Hg Hps. change (grips_of x1) with (grips_of x) in Hg. destruct (Hown g Hg) as (gr&K1&K2). rewrite <-K2 in Hx. by apply (Hpc g gr x Hps K1 Hx). }
  change (grips_of x1) with (grips_of x) in *.
  assert (∀ h, tok (closeHandle s1 x1) h = tok s h) as T' by (intros h; by rewrite T).
  assert (total (closeHandle s1 x1) x1 = length (grips_of x)) as Htot.
  { rewrite (total_const _ _ 1); [change (grips_of x1) with (grips_of x); lia|]. intros g Hg. rewrite T'. by apply S7. }
  eapply (rdinv_one _ _ s _ i x1); [exact J|..].
  - rewrite B6. apply (ri_panic _ _ J).
  - intros q Hq. rewrite B1. split; [done|]. rewrite want_req. cbn [req_path]. by rewrite decide_False by (rewrite <-Hp; done).
  - by rewrite B2.
  - left. cbn [w_path x1]. rewrite Hp. split; [by right|]. left. rewrite B1. split; [done|]. right; left.
    exists new, r. rewrite want_req. cbn [req_path w_path x1]. rewrite decide_True by done. split_and!; try done.
    + intros g Hg. change (grips_of x1) with (grips_of x) in Hg. rewrite T', S7 by done. split; [|done]. unfold closed. rewrite G, decide_True by done. by destruct (rs_grips s1 !! g).
    + cbn [w_count x1]. by rewrite Htot.
    + rewrite Htot. by eapply fits_some.
  - split; [done|]. intros g Hg. change (grips_of x1) with (grips_of x) in Hg. rewrite G, decide_True by done. destruct (Hown g Hg) as (gr&K1&K2).
    change (rs_grips s1) with (rs_grips s). rewrite K1. cbn. eauto.
  - intros g gr Hg Hne. rewrite T', G. split; [|done]. change (rs_grips s1) with (rs_grips s). rewrite decide_False; [done|]. intros Hin. destruct (Hown g Hin) as (gr'&K1&K2). congruence.
  - intros g gr Hg. rewrite G in Hg. change (rs_grips s1) with (rs_grips s) in Hg. change (grips_of x1) with (grips_of x). destruct (decide (g ∈ grips_of x)) as [Hin|Hin].
    + left. destruct (Hown g Hin) as (gr'&K1&K2). rewrite K1 in Hg. injection Hg as <-. done.
    + destruct (decide (g_parent gr = i)) as [Hpar|Hpar]; [left|by right]. split; [done|]. intros _. rewrite T'. destruct (ri_gr _ _ J g gr Hg) as (y&Y1&Y2).
      rewrite Hpar, Hx in Y1. injection Y1 as <-. by apply Y2.
  - by rewrite B3.
  - rewrite B3. by apply (ri_wn _ _ J) in Hx.
  - intros g gr Hg. rewrite G in Hg. change (rs_grips s1) with (rs_grips s) in Hg. rewrite B3. change (rs_next s1) with (rs_next s).
    destruct (rs_grips s !! g) as [gr'|] eqn:E; [by apply (ri_gn _ _ J) in E|]. by destruct (decide (g ∈ grips_of x)).
  - intros g Hg. rewrite T' in Hg. rewrite G. change (rs_grips s1) with (rs_grips s). apply (ri_tok _ _ J) in Hg as [gr ->]. destruct (decide (g ∈ grips_of x)); cbn; eauto.
  - intros y Hy. rewrite Hx in Hy. by injection Hy as <-.
Qed.
Lemma post_tok s l h : NoDup l → tok (set_io s (rs_reads s) (((λ g, (g, [])) <$> l) ++ rs_queue s)) h = (tok s h + if decide (h ∈ l) then 1 else 0)%nat.
Proof.
  intros Hnd. unfold tok, closed, set_io. cbn [rs_reads rs_queue rs_pc rs_grips]. rewrite filter_app, app_length.
  assert (length (filter (λ x : nat * list fninfo, x.1 = h) ((λ g, (g, [])) <$> l)) = if decide (h ∈ l) then 1 else 0)%nat as ->; [|lia].
  induction l as [|g l IH]; [rewrite decide_False; [done|apply not_elem_of_nil]|]. apply NoDup_cons in Hnd as [Hg Hnd]. rewrite fmap_cons, len_filter_cons, IH by done. cbn [fst].
  destruct (decide (g = h)) as [->|Hne].
  - rewrite (decide_False (P := h ∈ l)), (decide_True (P := h ∈ h :: l)); [done|by left|done].
  - destruct (decide (h ∈ l)) as [K|K]; [rewrite decide_True by (by right)|rewrite decide_False by (by intros [?|?]%elem_of_cons)]; done.
Qed.
Lemma unwatch_inv tr s p there s' res : rdinv (want tr) s → rd_unwatch s there true p = (s', res) → ∀ a c, rdinv (want (tr ++ [LReq (QUnwatch p) a c res])) s'.
Proof.
  intros J Hs a c. unfold rd_unwatch in Hs.
  destruct (nonState s p) as [[i x]|] eqn:Hns.
  2: { injection Hs as <- <-. eapply rdinv_want; [|exact J]. intros q. by rewrite want_req. }
  destruct (settled_of _ _ _ _ _ J Hns) as (Ht&Hx&Hp&(e&k&S1&S2&S3&S4&S5&S6&S7&S8)).
  destruct (ri_own _ _ J i x Hx) as [Hnd Hown].
  set (x1 := with_filter x (w_filter x .| stateUnwatch)) in *.
  assert (rs_panic s' = rs_panic s ∧ rs_tab s' = rs_tab s ∧ rs_wds s' = <[i := x1]> (rs_wds s) ∧ rs_grips s' = rs_grips s ∧ rs_next s' = rs_next s ∧ res = true ∧
    ∀ h, tok s' h = (tok s h + if decide (h ∈ grips_of x) then if there then 0 else 1 else 0)%nat) as (E1&E2&E3&E4&E5&E6&E7).
  { destruct there; apply pair_equal_spec in Hs as [<- <-]; split_and!; try done; intros h.
    - change (tok (set_wd s i x1) h) with (tok s h). destruct (decide (h ∈ grips_of x)); lia.
    - change (rs_reads s) with (rs_reads (set_wd s i x1)). by rewrite post_tok. }
  clear Hs. subst res.
  eapply (rdinv_one _ _ s _ i x1); [exact J|..]; try done.
  - rewrite E1. apply (ri_panic _ _ J).
  - intros q Hq. rewrite E2. split; [done|]. rewrite want_req. cbn [req_path]. by rewrite decide_False by (rewrite <-Hp; done).
  - left. change (w_path x1) with (w_path x). rewrite Hp. split; [by right|]. left. rewrite E2. split; [done|]. right; right.
    exists e. rewrite want_req. cbn [req_path]. change (w_path x1) with (w_path x). rewrite decide_True by done. split_and!; try done.
    + unfold x1. cbn [w_filter with_filter]. by rewrite S4.
    + intros g Hg. change (grips_of x1) with (grips_of x) in Hg. rewrite E7, decide_True, (S7 g Hg) by done. split; [|destruct there; lia].
      unfold closed. rewrite E4. by eapply fits_open.
    + change (w_count x1) with (w_count x). rewrite S8. pose proof (fits_some _ _ _ _ _ S6 S3). lia.
    + change (w_count x1) with (w_count x). rewrite S8. pose proof (grips_len x). lia.
  - split; [done|]. intros g Hg. rewrite E4. by apply Hown.
  - intros g gr Hg Hne. rewrite E4, E7. split; [done|]. rewrite decide_False; [lia|]. intros Hin. destruct (Hown g Hin) as (gr'&K1&K2). congruence.
  - intros g gr Hg. rewrite E4 in Hg. change (grips_of x1) with (grips_of x).
    destruct (decide (g_parent gr = i)) as [Hpar|Hpar]; [left|by right]. split; [done|]. intros Hin. rewrite E7, decide_False by done. destruct (ri_gr _ _ J g gr Hg) as (y&Y1&Y2).
    rewrite Hpar, Hx in Y1. injection Y1 as <-. destruct (Y2 Hin) as [? ->]. done.
  - by rewrite E5.
  - rewrite E5. by apply (ri_wn _ _ J) in Hx.
  - rewrite E4, E5. apply (ri_gn _ _ J).
  - intros g Hg. rewrite E4. rewrite E7 in Hg. destruct (decide (g ∈ grips_of x)) as [Hin|Hin]; [destruct (Hown g Hin) as (gr&->&_); eauto|].
    apply (ri_tok _ _ J). lia.
  - intros y Hy. rewrite Hx in Hy. by injection Hy as <-.
Qed.

(** ** The loop *)
Lemma state_tok s g h : rs_pc s = PState g → tok s h = (tok (set_pc s PWait) h + if decide (g = h) then b2n (closed s h) else 0)%nat.
Proof. intros Hpc. unfold tok, closed, set_pc. cbn [rs_reads rs_queue rs_pc rs_grips]. rewrite Hpc. destruct (decide (g = h)) as [->|]; lia. Qed.
Lemma dec8_pred c : 1 <= c → c <= 255 → dec8 c = c - 1.
Proof. intros H1 H2. unfold dec8. replace (c + 255) with ((c - 1) + 1 * 256) by lia. rewrite N.mod_add by done. apply N.mod_small. lia. Qed.
Lemma state_inv W s g : rdinv W s → rs_pc s = PState g → rdinv W (loopstate (set_pc s PWait) true true g).
Proof.
  intros J Hpc. set (s0 := set_pc s PWait).
  assert (is_Some (rs_grips s !! g)) as [gr Hg].
  { destruct (rs_grips s !! g) as [gr|] eqn:E; [eauto|]. assert (tok s g ≠ 0%nat) as K; [|apply (ri_tok _ _ J) in K; by rewrite E in K].
    rewrite (state_tok s g g Hpc), decide_True by done. unfold closed. rewrite E. cbn. lia. }
  destruct (ri_gr _ _ J g gr Hg) as (x&Hx&Hin'). set (i := g_parent gr) in *.
  destruct (decide (g ∈ grips_of x)) as [Hin|Hin].
  2: { exfalso. destruct (Hin' Hin) as [K1 K2]. rewrite (state_tok s g g Hpc), decide_True in K2 by done. unfold closed in K2. rewrite Hg, K1 in K2. cbn in K2. lia. }
  clear Hin'. destruct (ri_own _ _ J i x Hx) as [Hnd Hown].
  assert (∀ h, h ≠ g → tok s h = tok s0 h) as Hoth.
  { intros h Hh. rewrite (state_tok s g h Hpc), decide_False by done. unfold s0. lia. }
  assert (tok s g = (tok s0 g + b2n (closed s g))%nat) as Htg by (by rewrite (state_tok s g g Hpc), decide_True).
  unfold loopstate. change (rs_grips s0) with (rs_grips s). rewrite Hg. change (rs_wds s0) with (rs_wds s). fold i. rewrite Hx.
  assert (stateRewatch .& onlyMachineStates = stateRewatch) as Hr1 by (by vm_compute).
  assert (incl_ev stateRewatch onlyMachineStates) as Hr2 by (apply land_eq_incl; by vm_compute).
  assert (incl_ev stateUnwatch onlyMachineStates) as Hu2 by (apply land_eq_incl; by vm_compute).
  assert (∀ h, h ∈ grips_of x → is_Some (rs_grips s !! h)) as Hsome by (intros h Hh; destruct (Hown h Hh) as (?&->&_); eauto).
  assert (∀ h gr', rs_grips s !! h = Some gr' → h ∉ grips_of x → g_parent gr' = i → g_open gr' = false ∧ tok s0 h = 0%nat) as Hdrop.
  { intros h gr' Hh Hni Hpar. destruct (ri_gr _ _ J h gr' Hh) as (y&Y1&Y2). rewrite Hpar, Hx in Y1. injection Y1 as <-. destruct (Y2 Hni) as [K1 K2].
    split; [done|]. rewrite <-Hoth; [done|]. by intros ->. }
  assert (∀ h, tok s0 h ≠ 0%nat → is_Some (rs_grips s !! h)) as Htk0.
  { intros h Hh. apply (ri_tok _ _ J). destruct (decide (h = g)) as [->|]; [|by rewrite Hoth]. rewrite Htg. lia. }
  assert (∀ c, own s0 i (with_count x c)) as Hown0 by (intros c; split; [exact Hnd|exact Hown]).
  (* only the counter changes *)
  assert (∀ c, let x1 := with_count x c in
    (rs_tab s !! w_path x = Some i ∧ (settled W (set_wd s0 i x1) i x1 ∨ rewatching W (set_wd s0 i x1) x1 ∨ unwatching W (set_wd s0 i x1) x1) ∨
     rs_tab s !! w_path x ≠ Some i ∧ removed (set_wd s0 i x1) x1) → rdinv W (set_wd s0 i x1)) as Hcount.
  { intros c x1 Hph. eapply (rdinv_one W W s _ i x1); [exact J|..]; try done.
    - apply (ri_panic _ _ J).
    - destruct Hph as [[T K]|[T K]]; [left|right; done]. split; [by right|]. left. done.
    - intros h gr' Hh Hne. split; [done|]. symmetry. apply Hoth. intros ->. rewrite Hg in Hh. injection Hh as <-. by apply Hne.
    - intros h gr' Hh. change (rs_grips (set_wd s0 i x1)) with (rs_grips s) in Hh. change (grips_of x1) with (grips_of x).
      destruct (decide (g_parent gr' = i)) as [Hpar|]; [left|by right]. split; [done|]. intros Hni. by apply Hdrop.
    - by apply (ri_wn _ _ J) in Hx.
    - apply (ri_gn _ _ J).
    - intros y Hy. rewrite Hx in Hy. by injection Hy as <-. }
  destruct (decide (rs_tab s !! w_path x = Some i)) as [Htab|Htab].
  - destruct (ri_live _ _ J i x Hx Htab) as [K|[K|K]].
    + (* settled *)
      destruct K as (e&r&S1&S2&S3&S4&S5&S6&S7&S8). rewrite S4.
      assert (e .& onlyMachineStates = 0) as -> by (apply land_zero_disj, (req_disj e _ S2); by vm_compute). cbn [N.eqb].
      eapply rdinv_same; [exact J|try done..]; [apply (ri_panic _ _ J)|]. intros h. destruct (decide (h = g)) as [->|Hh]; [|by rewrite Hoth].
      rewrite Htg, (fits_open _ _ _ _ _ g S6 Hin). cbn [b2n]. lia.
    + (* rewatching *)
      destruct K as (e&r&S1&S2&S3&S4&S5&S6&S7&S8). rewrite S4, (N.lor_comm stateRewatch e), (mach_state e stateRewatch S2 Hr2). change (stateRewatch =? 0) with false. cbv iota.
      destruct (S6 g Hin) as [Hcl Hle]. rewrite Hcl in Htg. cbn [b2n] in Htg.
      assert (total s x = S (total s0 x)) as Htot by (apply (total_dec s s0 x g); [done|done|lia|done]).
      assert (total s x ≤ 2)%nat as Hmax.
      { pose proof (grips_len x). pose proof (total_le s x 1 ltac:(intros h Hh; by apply S6)). lia. }
      cbn [w_count with_count]. rewrite dec8_pred by lia.
      destruct (N.eqb_spec (w_count x - 1) 0) as [Hz|Hz].
      * change (stateRewatch =? stateRewatch) with true. cbv iota. set (x1 := with_count x (w_count x - 1)).
        destruct (recreate_ok (set_wd s0 i x1) i x1 e stateRewatch) as (s2&x'&R&(M1&M2&M3&M4&M5)&W1&F1&R1&P1&C1&Fi&Ow&Kin&Kout&Kn).
        { apply lookup_insert. }
        { change (w_filter x1) with (w_filter x). by rewrite S4, N.lor_comm. }
        { done. } { by right. } { done. } { exact Hnd. }
        { intros h Hh. change (grips_of x1) with (grips_of x) in Hh. split_and!; [by apply S6| |by apply Hown].
          change (tok s0 h = 0%nat). apply (total_zero s0 x); [lia|done]. }
        { apply (ri_gn _ _ J). }
        { exact Htk0. }
        rewrite R. cbn [fst]. change (grips_of x1) with (grips_of x) in Kin.
        eapply (rdinv_one W W s _ i x'); [exact J|..].
        -- rewrite M4. apply (ri_panic _ _ J).
        -- intros p _. by rewrite M1.
        -- rewrite W1. cbn [rs_wds set_wd]. by rewrite insert_insert.
        -- left. rewrite P1, M1. change (w_path x1) with (w_path x). split; [by right|]. left. split; [done|]. left. exists e, r. rewrite P1. split_and!; try done.
           ++ intros ->. by apply S3.
           ++ by rewrite R1.
           ++ by rewrite <-S5.
           ++ intros h Hh. by apply Kin.
        -- done.
        -- intros h gr' Hh Hne. assert (h ∉ grips_of x') as Hn.
           { intros Hh'. destruct (Kin h Hh') as [_ [K|K]]; [|by change (rs_grips (set_wd s0 i x1)) with (rs_grips s) in K; rewrite K in Hh].
             destruct (Hown h K) as (gr''&K1&K2). congruence. }
           destruct (Kout h Hn) as [K1 K2]. rewrite K1, K2. split; [done|]. change (tok s0 h = tok s h). symmetry. apply Hoth. intros ->. rewrite Hg in Hh. injection Hh as <-. by apply Hne.
        -- intros h gr' Hh. destruct (decide (h ∈ grips_of x')) as [Hn|Hn].
           ++ left. split; [|done]. destruct Ow as [_ Ow]. destruct (Ow h Hn) as (gr''&K1&K2). rewrite K1 in Hh. by injection Hh as <-.
           ++ destruct (Kout h Hn) as [K1 K2]. rewrite K2 in Hh. change (rs_grips (set_wd s0 i x1)) with (rs_grips s) in Hh.
              destruct (decide (g_parent gr' = i)) as [Hpar|]; [left|by right]. split; [done|]. intros _. rewrite K1. change (tok (set_wd s0 i x1) h) with (tok s0 h).
              destruct (decide (h ∈ grips_of x)) as [Hh2|Hh2]; [|by apply Hdrop]. split; [|apply (total_zero s0 x); [lia|done]].
              destruct (S6 h Hh2) as [K _]. unfold closed in K. rewrite Hh in K. by destruct (g_open gr').
        -- change (rs_next (set_wd s0 i x1)) with (rs_next s) in M5. done.
        -- change (rs_next (set_wd s0 i x1)) with (rs_next s) in M5. apply (ri_wn _ _ J) in Hx. lia.
        -- exact Kn.
        -- intros h Hh. destruct (decide (h ∈ grips_of x')) as [Hn|Hn].
           ++ destruct Ow as [_ Ow]. destruct (Ow h Hn) as (gr''&->&_). eauto.
           ++ destruct (Kout h Hn) as [K1 K2]. rewrite K2. apply Htk0. by rewrite <-K1 in Hh || (rewrite K1 in Hh; exact Hh).
        -- intros y Hy. rewrite Hx in Hy. injection Hy as <-. by rewrite P1.
      * apply (Hcount (w_count x - 1)). left. split; [done|]. right; left. exists e, r. split_and!; try done.
        -- intros h Hh. split; [by apply S6|]. change (tok s0 h ≤ 1)%nat. destruct (S6 h Hh) as [_ K]. destruct (decide (h = g)) as [->|]; [lia|]. by rewrite <-Hoth.
        -- change (w_count x - 1 = N.of_nat (total s0 x)). lia.
        -- change (1 ≤ total s0 x)%nat. lia.
    + (* unwatching *)
      destruct K as (e&S1&S2&S3&S4&S5&S6). rewrite S3, (mach_state e stateUnwatch S2 Hu2). change (stateUnwatch =? 0) with false. cbv iota.
      destruct (S4 g Hin) as [Hcl Hle]. rewrite Hcl in Htg. cbn [b2n] in Htg.
      assert (∀ h, tok s0 h = tok s h) as Hsame. { intros h. destruct (decide (h = g)) as [->|]; [lia|by rewrite Hoth]. }
      cbn [w_count with_count]. rewrite dec8_pred by lia.
      destruct (N.eqb_spec (w_count x - 1) 0) as [Hz|Hz].
      * change (stateUnwatch =? stateRewatch) with false. change (stateUnwatch =? stateUnwatch) with true. cbv iota.
        set (x1 := with_count x (w_count x - 1)). set (s1 := set_wd s0 i x1).
        destruct (closeHandle_spec s1 x1) as ([B1 B2 B3 B4 B5 B6]&G&T); [done|]. change (grips_of x1) with (grips_of x) in G. change (rs_grips s1) with (rs_grips s) in G.
        assert (∀ h, tok (closeHandle s1 x1) h = tok s h) as T' by (intros h; by rewrite T, <-Hsame).
        assert (∀ h, tok (set_tab (closeHandle s1 x1) (delete (w_path x1) (rs_tab (closeHandle s1 x1)))) h = tok s h) as T2 by exact T'.
        eapply (rdinv_one W W s _ i x1); [exact J|..]; cbn [rs_panic rs_tab rs_wds rs_grips rs_next set_tab].
        -- rewrite B6. apply (ri_panic _ _ J).
        -- intros q Hq. rewrite lookup_delete_ne, B1 by done. done.
        -- by rewrite B2.
        -- left. change (w_path x1) with (w_path x). split; [by right|]. right. rewrite lookup_delete. split_and!; [done|done|]. exists e, 0%nat. split_and!; try done.
           ++ intros h Hh. change (grips_of x1) with (grips_of x) in Hh. unfold closed. cbn [rs_grips set_tab]. rewrite G, decide_True by done. by destruct (rs_grips s !! h).
           ++ assert (total (set_tab (closeHandle s1 x1) (delete (w_path x) (rs_tab (closeHandle s1 x1)))) x1 ≤ length (grips_of x1) * 2)%nat as K.
              { apply total_le. intros h Hh. change (tok (closeHandle s1 x1) h ≤ 2)%nat. rewrite T'. by apply S4. }
              pose proof (grips_len x1). lia.
        -- split; [exact Hnd|]. intros h Hh. change (grips_of x1) with (grips_of x) in Hh. cbn [rs_grips set_tab]. rewrite G, decide_True by done. destruct (Hown h Hh) as (gr'&K1&K2). rewrite K1. cbn. eauto.
        -- intros h gr' Hh Hne. rewrite T2, G. split; [|done]. rewrite decide_False; [done|]. intros Hh'. destruct (Hown h Hh') as (gr''&K1&K2). congruence.
        -- intros h gr' Hh. rewrite G in Hh. change (grips_of x1) with (grips_of x). destruct (decide (h ∈ grips_of x)) as [Hh'|Hh'].
           ++ left. destruct (Hown h Hh') as (gr''&K1&K2). rewrite K1 in Hh. injection Hh as <-. done.
           ++ destruct (decide (g_parent gr' = i)) as [Hpar|]; [left|by right]. split; [done|]. intros _. rewrite T2, <-Hsame. by apply Hdrop.
        -- by rewrite B3.
        -- rewrite B3. by apply (ri_wn _ _ J) in Hx.
        -- intros h gr' Hh. rewrite G in Hh. rewrite B3. change (rs_next s1) with (rs_next s).
           destruct (rs_grips s !! h) as [gr''|] eqn:E; [by apply (ri_gn _ _ J) in E|]. by destruct (decide (h ∈ grips_of x)).
        -- intros h Hh. rewrite T2 in Hh. rewrite G. apply (ri_tok _ _ J) in Hh as [gr' ->]. destruct (decide (h ∈ grips_of x)); cbn; eauto.
        -- intros y Hy. rewrite Hx in Hy. by injection Hy as <-.
      * apply (Hcount (w_count x - 1)). left. split; [done|]. right; right. exists e. split_and!; try done.
        -- intros h Hh. split; [by apply S4|]. change (1 ≤ tok s0 h ≤ 2)%nat. rewrite Hsame. by apply S4.
        -- cbn [w_count with_count]. lia.
        -- cbn [w_count with_count]. lia.
  - (* removed *)
    destruct (ri_dead _ _ J i x Hx Htab) as (e&k&S1&S2&S3&S4&S5). rewrite S2, (mach_state e stateUnwatch S1 Hu2). change (stateUnwatch =? 0) with false. cbv iota.
    rewrite (S3 g Hin) in Htg. cbn [b2n] in Htg.
    assert (total s x = S (total s0 x)) as Htot by (apply (total_dec s s0 x g); [done|done|lia|done]).
    assert (dec8 (w_count x) = 256 - N.of_nat (S k)) as Hd.
    { rewrite S4. unfold dec8. destruct k as [|k]; [done|]. rewrite (N.mod_small (256 - _)) by lia. replace (256 - N.of_nat (S k) + 255) with ((256 - N.of_nat (S (S k))) + 1 * 256) by lia.
      rewrite N.mod_add by done. apply N.mod_small. lia. }
    cbn [w_count with_count]. rewrite Hd. destruct (N.eqb_spec (256 - N.of_nat (S k)) 0) as [Hz|Hz]; [lia|].
    apply (Hcount (256 - N.of_nat (S k))). right. split; [done|]. exists e, (S k). split_and!; try done.
    + cbn [w_count with_count]. rewrite N.mod_small by lia. done.
    + change (S k + total s0 x ≤ 10)%nat. lia.
Qed.

(** ** All steps *)
Lemma rdorderly_inv tr s : rdorderly tr s → rdinv (want tr) s.
Proof.
  induction 1 as [|tr s l s' Ho IH Hl Hs]; [by apply rdinv_init|].
  destruct Hs as [q ok0 ok1 s' r Hq|g l l1 x l2 Hr Hg|g l l1 l2 gr wd Hpc Hq Hg Hw|g ok Hpc|g ok0 ok1 Hpc].
  - cbn [orderly_label] in Hl. destruct Hl as [Hpc Hl]. destruct q as [p e k|p old new k|p]; cbn [rd_request req_path] in *.
    + destruct Hl as (->&->&He&He0&Ht). by eapply watch_inv.
    + destruct Hl as (->&Hn&Hn0&Hold). by eapply rewatch_inv.
    + rewrite Hl in *. by eapply unwatch_inv.
  - eapply rdinv_want; [intros p; by apply want_other|]. eapply rdinv_same; [exact IH|try done..]; [apply (ri_panic _ _ IH)|].
    intros h. by eapply data_tok.
  - eapply rdinv_want; [intros p; by apply want_other|]. eapply rdinv_same; [exact IH|try done..]; [apply (ri_panic _ _ IH)|].
    intros h. by eapply take_tok.
  - cbn [orderly_label] in Hl. subst ok. eapply rdinv_want; [intros p; by apply want_other|].
    eapply rdinv_same; [exact IH|..]; try (unfold readDirChanges; destruct (rs_grips s !! g) as [gr|]; [destruct (g_open gr && true)|]; try done; apply (ri_panic _ _ IH)).
    intros h. by apply read_tok.
  - cbn [orderly_label] in Hl. destruct Hl as [-> ->]. eapply rdinv_want; [intros p; by apply want_other|]. by apply state_inv.
Qed.
