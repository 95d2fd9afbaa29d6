(** * FsevFacts: proofs about the FSEvents watcher *)
From Verif Require Import Base Event Paths PathsFacts Node SpecOS Fsev SpecFsev.
From Coq Require Import Sorting.
From stdpp Require Import sorting.
Local Open Scope N_scope.

(** ** splitflags *)
Lemma pow2_and1 set : set .& 1 = 0 ↔ ¬ has set 0.
Proof.
  unfold has. split.
  - intros H K. assert (has (set .& 1) 0) as X by (apply has_land; split; done). rewrite H in X. by apply has_0 in X.
  - intros H. apply zero_bits. intros i. rewrite N.land_spec. destruct (decide (i = 0)) as [->|Hi].
    + destruct (N.testbit set 0); done.
    + destruct (N.testbit set i); [|done]. simpl. destruct i; [done|]. by destruct p.
Qed.
Lemma splitloop_spec fuel : ∀ k set, set < 2 ^ N.of_nat fuel → k + N.of_nat fuel ≤ 32 →
  (∀ e, e ∈ splitloop fuel (2 ^ k) set ↔ ∃ j, has set j ∧ e = 2 ^ (k + j)) ∧
  StronglySorted N.lt (splitloop fuel (2 ^ k) set).
Proof.
  induction fuel as [|fuel IH]; intros k set Hset Hk.
  - simpl in Hset. assert (set = 0) as -> by lia. simpl. split; [|constructor].
    intros e. rewrite elem_of_nil. split; [done|]. by intros (j&H%has_0&_).
  - cbn [splitloop]. destruct (N.eqb_spec set 0) as [->|Hne].
    { split; [|constructor]. intros e. rewrite elem_of_nil. split; [done|]. by intros (j&H%has_0&_). }
    assert (N.shiftr set 1 < 2 ^ N.of_nat fuel) as Hs.
    { rewrite N.shiftr_div_pow2. apply N.div_lt_upper_bound; [done|]. rewrite Nat2N.inj_succ, N.pow_succ_r' in Hset. change (2 ^ 1) with 2. exact Hset. }
    set (rest := splitloop fuel (N.shiftl (2 ^ k) 1 .& all32) (N.shiftr set 1)).
    assert ((∀ e, e ∈ rest ↔ ∃ j, has (N.shiftr set 1) j ∧ e = 2 ^ (k + 1 + j)) ∧ StronglySorted N.lt rest) as [Hr1 Hr2].
    { destruct fuel as [|fuel'].
      - change (2 ^ N.of_nat 0) with 1 in Hs. assert (N.shiftr set 1 = 0) as Hz by (generalize dependent (N.shiftr set 1); intros; lia). unfold rest. cbn [splitloop]. rewrite Hz. split; [|constructor].
        intros e. rewrite elem_of_nil. split; [done|]. by intros (j&H%has_0&_).
      - assert (N.shiftl (2 ^ k) 1 .& all32 = 2 ^ (k + 1)) as Hp.
        { rewrite N.shiftl_mul_pow2, <-N.pow_add_r. change all32 with (N.ones 32). rewrite N.land_ones.
          apply N.mod_small. apply N.pow_lt_mono_r; lia. }
        unfold rest. rewrite Hp. apply IH; [done|lia]. }
    assert (∀ j, has (N.shiftr set 1) j ↔ has set (j + 1)) as Hsh by (intros j; unfold has; by rewrite N.shiftr_spec').
    split.
    + intros e. rewrite elem_of_app, Hr1. split.
      * intros [H|(j&H1&->)].
        -- exists 0. rewrite N.add_0_r. destruct (N.eqb_spec (set .& 1) 0) as [Hz|Hz]; simpl in H; [by apply elem_of_nil in H|].
           apply elem_of_list_singleton in H as ->. split; [|done]. rewrite pow2_and1 in Hz. by apply dec_stable.
        -- exists (j + 1). split; [by apply Hsh|]. f_equal. lia.
      * intros (j&H1&->). destruct (decide (j = 0)) as [->|Hj].
        -- left. rewrite N.add_0_r. destruct (N.eqb_spec (set .& 1) 0) as [Hz|Hz]; simpl; [|by left].
           rewrite pow2_and1 in Hz. done.
        -- right. exists (j - 1). split; [apply Hsh; by replace (j - 1 + 1) with j by lia|]. f_equal. lia.
    + destruct (negb _); [|done]. simpl. constructor; [done|]. apply List.Forall_forall. intros e He%elem_of_list_In.
      apply Hr1 in He as (j&_&->). apply N.pow_lt_mono_r; lia.
Qed.
Lemma splitflags_spec set : u32 set →
  (∀ e, e ∈ splitflags set ↔ ∃ j, has set j ∧ e = 2 ^ j) ∧ StronglySorted N.lt (splitflags set).
Proof.
  intros Hu. unfold splitflags. change 1 with (2 ^ 0) at 1.
  destruct (splitloop_spec (N.to_nat (N.size set)) 0 set) as [H1 H2].
  - rewrite N2Nat.id. apply N.size_gt.
  - rewrite N2Nat.id. destruct (decide (set = 0)) as [->|Hne]; [done|]. rewrite N.size_log2 by done.
    assert (N.log2 set < 32); [|lia]. apply N.log2_lt_pow2; [lia|exact Hu].
  - split; [|done]. exact H1.
Qed.
Lemma sorted_nodup l : StronglySorted N.lt l → NoDup l.
Proof.
  induction 1 as [|x l Hs IH Hx]; constructor; [|done]. intros Hin. rewrite List.Forall_forall in Hx.
  apply elem_of_list_In, Hx in Hin. lia.
Qed.

(** ** The part of an event's path below the watched path *)
Lemma fs_base_spec p q isrec base : comps_ok fslash p → comps_ok fslash q →
  fs_base fslash (render fslash p) isrec (render fslash q) = Some base ↔
  ∃ r, q = p ++ r ∧ (isrec = true ∨ (length r ≤ 1)%nat) ∧ base = tail (render fslash r).
Proof.
  intros Hp Hq. unfold fs_base. set (n := length (render fslash p)). split.
  - case_bool_decide as Ht; [|done]. simpl. destruct (Nat.ltb_spec n (length (render fslash q))) as [Hlt|Hge].
    + destruct (render fslash q !! n) as [ch|] eqn:Hch; [|done].
      destruct (Ascii.eqb_spec ch fslash) as [->|]; [|done]. simpl.
      assert (render fslash q = render fslash p ++ fslash :: drop (S n) (render fslash q)) as Hs.
      { rewrite <-(take_drop_middle _ _ _ Hch) at 1. by rewrite Ht. }
      destruct (render_prefix fslash p q _ Hp Hq Hs) as (d&es&->&Hd). rewrite Hd.
      apply Forall_app in Hq as [_ [Hd1 Hes]%Forall_cons].
      intros H. exists (d :: es). split; [done|].
      destruct isrec; simpl in H; [injection H as <-; split; [by left|done]|].
      case_bool_decide as Hi; simpl in H; [|done]. injection H as <-. split; [|done]. right.
      apply indexSep_None in Hi. destruct es as [|c es]; [simpl; lia|]. exfalso. apply Hi.
      rewrite render_cons. apply elem_of_app. right. by left.
    + intros [= <-]. exists []. rewrite app_nil_r. split_and!; [|right; simpl; lia|done].
      rewrite take_ge in Ht by done. by apply (render_inj fslash).
  - intros (r&->&Hr&->). rewrite render_app. fold n. unfold n. rewrite take_app. rewrite bool_decide_true by done. simpl.
    destruct r as [|d es].
    + rewrite render_nil, app_nil_r. rewrite Nat.ltb_irrefl. done.
    + rewrite render_cons. rewrite app_length. cbn [length].
      replace (length (render fslash p) <? _)%nat with true by (symmetry; apply Nat.ltb_lt; lia).
      rewrite list_lookup_middle by done. rewrite Ascii.eqb_refl. simpl.
      rewrite drop_app_ge by lia. replace (S (length (render fslash p)) - length (render fslash p))%nat with 1%nat by lia. simpl.
      apply Forall_app in Hq as [_ [Hd1 Hes]%Forall_cons].
      destruct Hr as [->|Hl]; [done|]. destruct es as [|c es]; [|simpl in Hl; lia].
      rewrite render_nil, app_nil_r. rewrite (bool_decide_true (_ = None)); [by rewrite andb_false_r|].
      by apply indexSep_None.
Qed.
Lemma base_inj r r' : clean r → clean r' → tail (render fslash r) = tail (render fslash r') → r = r'.
Proof.
  intros [H1 H2] [H1' H2'] E. destruct r as [|d es], r' as [|d' es']; [done| | |].
  - rewrite render_cons in E. simpl in E. destruct d' as [|]; [|done]. destruct H2'. by left.
  - rewrite render_cons in E. simpl in E. destruct d as [|]; [|done]. destruct H2. by left.
  - apply (render_inj fslash); [done..|]. rewrite !render_cons in *. simpl in E. by rewrite E.
Qed.
Lemma clean_app p r : clean (p ++ r) → clean r.
Proof. intros [H1 H2]. apply Forall_app in H1 as [_ H1]. split; [done|]. intros H. apply H2, elem_of_app. by right. Qed.

(** ** Running *)
Lemma fs_run_acc x l out :
  foldl (λ '(y, out) i, let '(y, o) := dispatch1 (it_events i) (it_isrec i) y (it_ev i) in (y, out ++ o)) (x, out) l =
  ((fs_run x l).1, out ++ (fs_run x l).2).
Proof.
  unfold fs_run. revert x out. induction l as [|i l IH]; intros x out; simpl; [by rewrite app_nil_r|].
  destruct (dispatch1 _ _ x _) as [y o]. rewrite IH, (IH y o). simpl. by rewrite app_assoc.
Qed.
Lemma fs_run_nil x : fs_run x [] = (x, []).
Proof. done. Qed.
Lemma fs_run_cons x i l : fs_run x (i :: l) =
  ((fs_run (dispatch1 (it_events i) (it_isrec i) x (it_ev i)).1 l).1,
   (dispatch1 (it_events i) (it_isrec i) x (it_ev i)).2 ++ (fs_run (dispatch1 (it_events i) (it_isrec i) x (it_ev i)).1 l).2).
Proof. unfold fs_run at 1. simpl. destruct (dispatch1 _ _ x _) as [y o]. by rewrite fs_run_acc. Qed.
Lemma dispatch1_path es k x ev : fw_path (dispatch1 es k x ev).1 = fw_path x.
Proof.
  unfold dispatch1, strip. destruct (negb _); [done|]. destruct (negb _); [done|]. destruct (_ && _); [done|].
  destruct (fs_base _ _ _ _); [|done]. destruct (strip1 _ _) as [[v|] e]; destruct (_ =? 0); done.
Qed.
(** What one event does to the watch and to the events of [q]. *)
Lemma dispatch1_about p q i x : comps_ok fslash p → clean q → (∃ q', clean q' ∧ fe_path (it_ev i) = render fslash q') →
  fw_path x = render fslash p → fw_flushed x = true → p `prefix_of` q →
  let d := dispatch1 (it_events i) (it_isrec i) x (it_ev i) in
  let b := tail (render fslash (drop (length p) q)) in
  fw_flushed d.1 = true ∧
  (if decide (fe_flags (it_ev i) .& FSEventsHistoryDone = 0 ∧ concerns p q i)
   then about q d.2 = sent i (strip1 (default 0 (fw_prev x !! b)) (fe_flags (it_ev i))).2 ∧
        default 0 (fw_prev d.1 !! b) = default (default 0 (fw_prev x !! b)) (strip1 (default 0 (fw_prev x !! b)) (fe_flags (it_ev i))).1
   else about q d.2 = [] ∧ default 0 (fw_prev d.1 !! b) = default 0 (fw_prev x !! b)).
Proof.
  intros Hp Hq (q'&Hq'&Hev) Hx Hfl [r ->]. cbn zeta. rewrite drop_app. unfold dispatch1.
  destruct (N.eqb_spec (fe_flags (it_ev i) .& FSEventsHistoryDone) 0) as [Hm|Hm]; cbn [negb].
  2:{ split; [done|]. rewrite decide_False by tauto. done. }
  rewrite Hfl. cbn [negb].
  destruct (negb (fe_flags (it_ev i) .& fs_failure =? 0) && (fs_failure .& it_events i =? 0)) eqn:Hf.
  { split; [done|]. rewrite decide_False; [done|]. intros (_&_&_&_&H).
    apply andb_true_iff in Hf as [H1 H2]. apply N.eqb_eq in H2. apply negb_true_iff, N.eqb_neq in H1. tauto. }
  assert (fe_flags (it_ev i) .& fs_failure = 0 ∨ fs_failure .& it_events i ≠ 0) as Hf'.
  { apply andb_false_iff in Hf as [H%negb_false_iff%N.eqb_eq|H%N.eqb_neq]; tauto. }
  rewrite Hx, Hev.
  destruct (fs_base _ _ _ _) as [base|] eqn:Hb.
  - apply fs_base_spec in Hb as (r'&->&Hr&->); [|done|apply Hq']. unfold strip.
    destruct (strip1 _ _) as [v e] eqn:Hs.
    destruct (decide (r' = r)) as [->|Hne].
    + rewrite decide_True; [|split; [done|]; split; [done|]; split; [by exists r|]; split; [|done];
        rewrite app_length; destruct Hr; [by left|right; lia]].
      rewrite Hs. cbn [fst snd].
      assert (∀ l, about (p ++ r) ((λ f, (it_ev i, f)) <$> l) = (λ f, (it_ev i, f)) <$> l) as Hab.
      { clear - Hev. intros l. unfold about. induction l as [|f l IH]; [done|]. rewrite fmap_cons, filter_cons_True by done. by rewrite IH. }
      destruct (N.eqb_spec (e .& it_events i) 0) as [Hz|Hz]; cbn [fst snd].
      * unfold sent. rewrite Hz. split_and!; [by destruct v|done|].
        destruct v as [v|]; simpl; [by rewrite lookup_insert|done].
      * rewrite Hab. split_and!; [by destruct v|done|].
        destruct v as [v|]; simpl; [by rewrite lookup_insert|done].
    + assert (render fslash (p ++ r') ≠ render fslash (p ++ r)) as Hd.
      { intros H%render_inj; [|apply Hq'|apply Hq]. by apply (inj (app p)) in H. }
      rewrite decide_False by (rewrite <-Hev in Hd; intros (_&H&_); done).
      assert (tail (render fslash r') ≠ tail (render fslash r)) as Ht.
      { intros H%base_inj; [done|by eapply clean_app..]. }
      assert (∀ l, about (p ++ r) ((λ f, (it_ev i, f)) <$> l) = []) as Hab.
      { clear - Hev Hd. intros l. unfold about. induction l as [|f l IH]; [done|]. rewrite fmap_cons, filter_cons_False; [done|].
        cbn [fst]. by rewrite Hev. }
      destruct (e .& it_events i =? 0); cbn [fst snd]; rewrite ?Hab;
        (split_and!; [by destruct v|done|destruct v as [v|]; simpl; [by rewrite lookup_insert_ne|done]]).
  - split; [done|]. rewrite decide_False; [done|]. intros (_&H1&_&H2&_). rewrite Hev in H1.
    apply (render_inj fslash) in H1 as ->; [|apply Hq'|apply Hq].
    assert (is_Some (fs_base fslash (render fslash p) (it_isrec i) (render fslash (p ++ r)))) as [? HS]; [|congruence].
    exists (tail (render fslash r)). apply fs_base_spec; [done|apply Hq|]. exists r. split_and!; [done| |done].
    rewrite app_length in H2. destruct H2; [by left|right; lia].
Qed.
Lemma concerns_prefix p q i : concerns p q i → p `prefix_of` q.
Proof. by intros (_&?&_). Qed.
Lemma fs_run_flushed p q l : comps_ok fslash p → clean q → p `prefix_of` q → Forall clean_item l →
  ∀ x, fw_path x = render fslash p → fw_flushed x = true →
  about q (fs_run x l).2 =
  concat (zip_with sent (filter (concerns p q) (filter (λ i, fe_flags (it_ev i) .& FSEventsHistoryDone = 0) l))
    (effects (default 0 (fw_prev x !! tail (render fslash (drop (length p) q))))
       ((λ i, fe_flags (it_ev i)) <$> filter (concerns p q) (filter (λ i, fe_flags (it_ev i) .& FSEventsHistoryDone = 0) l)))).
Proof.
  intros Hp Hq Hpq Hl. induction Hl as [|i l Hi Hl IH]; intros x Hx Hfl; [done|].
  rewrite fs_run_cons. cbn [snd]. unfold about. rewrite filter_app. fold (about q).
  destruct (dispatch1_about p q i x Hp Hq Hi Hx Hfl Hpq) as [Hfl' Hd].
  change (filter _ (dispatch1 _ _ _ _).2) with (about q (dispatch1 (it_events i) (it_isrec i) x (it_ev i)).2).
  change (filter _ (fs_run _ l).2) with (about q (fs_run (dispatch1 (it_events i) (it_isrec i) x (it_ev i)).1 l).2).
  rewrite IH; [|by rewrite dispatch1_path|done].
  rewrite filter_cons. destruct (decide (_ ∧ _)) as [[Hm Hc]|Hn] in Hd.
  - destruct Hd as [-> ->]. rewrite decide_True by done. rewrite filter_cons, decide_True by done. done.
  - destruct Hd as [-> ->]. destruct (decide (fe_flags (it_ev i) .& FSEventsHistoryDone = 0)) as [Hm|Hm]; [|done].
    rewrite filter_cons, decide_False by tauto. done.
Qed.
Lemma fs_run_unflushed l : ∀ x, fw_flushed x = false → 
  Forall (λ i, fe_flags (it_ev i) .& FSEventsHistoryDone = 0) l → fs_run x l = (x, []).
Proof.
  induction l as [|i l IH]; intros x Hfl Hl; [done|]. apply Forall_cons in Hl as [Hi Hl].
  rewrite fs_run_cons. unfold dispatch1. rewrite Hi, Hfl. simpl. rewrite IH by done. done.
Qed.
Lemma fs_run_exact p q l events isrec : comps_ok fslash p → clean q → p `prefix_of` q → Forall clean_item l →
  about q (fs_run (fresh_watch (render fslash p) events isrec) l).2 =
  concat (zip_with sent (seen p q l) (effects 0 ((λ i, fe_flags (it_ev i)) <$> seen p q l))).
Proof.
  intros Hp Hq Hpq Hl. unfold seen. unfold fresh_watch. induction Hl as [|i l Hi Hl IH]; [done|].
  rewrite fs_run_cons. cbn [live snd]. unfold dispatch1. cbn [fw_flushed negb].
  destruct (decide (fe_flags (it_ev i) .& FSEventsHistoryDone = 0)) as [Hm|Hm].
  - rewrite Hm. cbn [N.eqb negb fst snd app]. exact IH.
  - apply N.eqb_neq in Hm as Hm'. rewrite Hm'. cbn [negb fst snd app].
    rewrite (fs_run_flushed p q l) by done. simpl. by rewrite lookup_empty.
Qed.

(** ** Create and Remove *)
Lemma sorted_filter (Q : N → Prop) `{∀ x, Decision (Q x)} l : StronglySorted N.lt l → StronglySorted N.lt (filter Q l).
Proof.
  induction 1 as [|x l Hs IH Hx]; [constructor|]. rewrite filter_cons. destruct (decide (Q x)); [|done].
  constructor; [done|]. rewrite List.Forall_forall in *. intros y Hy%elem_of_list_In.
  apply elem_of_list_filter in Hy as [_ Hy]. by apply Hx, elem_of_list_In.
Qed.
Lemma sorted_same l k : StronglySorted N.lt l → StronglySorted N.lt k → (∀ e, e ∈ l ↔ e ∈ k) → l = k.
Proof.
  intros Hl Hk H. assert (AntiSymm (=) N.lt) by (intros x y; lia).
  apply (StronglySorted_unique N.lt); [done|done|]. apply NoDup_Permutation; [by apply sorted_nodup|by apply sorted_nodup|done].
Qed.
Lemma has_pow2 e j : has e j ↔ e .& 2 ^ j ≠ 0.
Proof.
  split.
  - intros H Hz. assert (has (e .& 2 ^ j) j) as X; [|rewrite Hz in X; by apply has_0 in X].
    apply has_land. split; [done|]. unfold has. by rewrite N.pow2_bits_true.
  - intros (i&Hi)%nonzero_bit. apply has_land in Hi as [H1 H2]. unfold has in H2.
    destruct (decide (j = i)) as [->|Hne]; [done|]. by rewrite N.pow2_bits_false in H2.
Qed.
Lemma cr1 e : u32 e → filter (λ f, f = FSEventsCreated ∨ f = FSEventsRemoved) (splitflags e) =
  (if decide (e .& FSEventsCreated = 0) then [] else [FSEventsCreated]) ++
  (if decide (e .& FSEventsRemoved = 0) then [] else [FSEventsRemoved]).
Proof.
  intros Hu. destruct (splitflags_spec e Hu) as [H1 H2].
  assert (∀ f j, f = 2 ^ j → f ∈ splitflags e ↔ e .& f ≠ 0) as Hin.
  { intros f j ->. rewrite H1, <-has_pow2. split; [|eauto]. intros (k&Hk&E). apply N.pow_inj_r in E; [by subst|lia]. }
  apply sorted_same.
  - by apply sorted_filter.
  - destruct (decide _), (decide _); simpl; repeat constructor.
  - intros f. rewrite elem_of_list_filter.
    pose proof (Hin FSEventsCreated 8 eq_refl) as HC. pose proof (Hin FSEventsRemoved 9 eq_refl) as HR.
    split.
    + intros [[-> | ->] Hf]; apply elem_of_app.
      * left. rewrite decide_False by tauto. by left.
      * right. rewrite decide_False by tauto. by left.
    + rewrite elem_of_app. intros [Hf|Hf]; case_decide; (try by apply elem_of_nil in Hf); apply elem_of_list_singleton in Hf as ->; tauto.
Qed.
Lemma strip1_incl prev set : incl_ev (strip1 prev set).2 set.
Proof.
  unfold strip1. destruct (prev =? _); [|destruct (prev =? _)].
  - destruct (negb _); simpl; bits.
  - simpl. bits.
  - destruct (_ =? _); simpl; [bits|]. destruct (_ =? _); simpl; bits.
Qed.
Lemma incl_u32 a c : incl_ev a c → u32 c → u32 a.
Proof. intros H Hc. apply bits_u32. intros i Hi. apply (u32_bits c Hc). by apply H. Qed.
Lemma minus_self e f : (e .&^ f) .& f = 0.
Proof. bits. Qed.
Lemma minus_keep e f g : f .& g = 0 → (e .&^ f) .& g = e .& g.
Proof. intros H. bits. Qed.

(** What one step does to the two flags. *)
Lemma strip1_created set :
  (strip1 FSEventsCreated set).2 .& FSEventsCreated = 0 ∧
  (strip1 FSEventsCreated set).2 .& FSEventsRemoved = set .& FSEventsRemoved ∧
  (strip1 FSEventsCreated set).1 = (if decide (set .& FSEventsRemoved = 0) then None else Some FSEventsRemoved) ∧
  (set .& FSEventsRemoved ≠ 0 → (strip1 FSEventsCreated set).2 .& fs_write = 0).
Proof.
  unfold strip1. rewrite N.eqb_refl. cbn zeta.
  rewrite (minus_keep set FSEventsCreated FSEventsRemoved) by done.
  destruct (N.eqb_spec (set .& FSEventsRemoved) 0) as [Hz|Hz]; cbn [negb fst snd].
  - rewrite decide_True by done. split_and!; [apply minus_self|by apply minus_keep|done|done].
  - rewrite decide_False by done. split_and!.
    + rewrite (minus_keep _ fs_write) by done. apply minus_self.
    + rewrite (minus_keep _ fs_write) by done. by apply minus_keep.
    + done.
    + intros _. apply minus_self.
Qed.
Lemma strip1_removed set :
  (strip1 FSEventsRemoved set).2 .& FSEventsRemoved = 0 ∧
  (strip1 FSEventsRemoved set).2 .& FSEventsCreated = set .& FSEventsCreated ∧
  (strip1 FSEventsRemoved set).1 = (if decide (set .& FSEventsCreated = 0) then None else Some FSEventsCreated).
Proof.
  unfold strip1. change (FSEventsRemoved =? FSEventsCreated) with false. rewrite N.eqb_refl. cbn zeta iota.
  rewrite (minus_keep set FSEventsRemoved FSEventsCreated) by done.
  destruct (N.eqb_spec (set .& FSEventsCreated) 0) as [Hz|Hz]; cbn [negb fst snd].
  - rewrite decide_True by done. split_and!; [apply minus_self|by apply minus_keep|done].
  - rewrite decide_False by done. split_and!; [apply minus_self|by apply minus_keep|done].
Qed.
Lemma both_cases set : set .& fs_both = FSEventsCreated ∨ set .& fs_both = FSEventsRemoved ∨ set .& fs_both = 0 ∨ set .& fs_both = fs_both.
Proof.
  assert (set .& fs_both = (if decide (set .& FSEventsCreated = 0) then 0 else FSEventsCreated) .|
                           (if decide (set .& FSEventsRemoved = 0) then 0 else FSEventsRemoved)) as ->.
  { unfold fs_both. rewrite N.land_lor_distr_r. f_equal.
    - case_decide as H; [done|]. apply (has_pow2 set 8) in H. apply N.bits_inj. intros i.
      rewrite N.land_spec. change FSEventsCreated with (2 ^ 8). rewrite N.pow2_bits_eqb.
      destruct (N.eqb_spec 8 i) as [<-|]; [|apply andb_false_r]. unfold has in H. by rewrite H.
    - case_decide as H; [done|]. apply (has_pow2 set 9) in H. apply N.bits_inj. intros i.
      rewrite N.land_spec. change FSEventsRemoved with (2 ^ 9). rewrite N.pow2_bits_eqb.
      destruct (N.eqb_spec 9 i) as [<-|]; [|apply andb_false_r]. unfold has in H. by rewrite H. }
  destruct (decide _), (decide _); [right; right; left|right; left|left|right; right; right]; done.
Qed.
Lemma sub_both set v f : incl_ev f fs_both → set .& fs_both = v → set .& f = v .& f.
Proof.
  intros H <-. rewrite <-N.land_assoc. f_equal. apply N.bits_inj. intros i. rewrite N.land_spec.
  destruct (N.testbit f i) eqn:E; [|by rewrite andb_false_r]. rewrite (H i E). done.
Qed.
Lemma incl_C : incl_ev FSEventsCreated fs_both.
Proof. unfold fs_both. bits. Qed.
Lemma incl_R : incl_ev FSEventsRemoved fs_both.
Proof. unfold fs_both. bits. Qed.
Lemma created_removed_cons e l : u32 e → created_removed (e :: l) =
  (if decide (e .& FSEventsCreated = 0) then [] else [FSEventsCreated]) ++
  (if decide (e .& FSEventsRemoved = 0) then [] else [FSEventsRemoved]) ++ created_removed l.
Proof. intros Hu. unfold created_removed. rewrite fmap_cons. cbn [concat]. rewrite cr1 by done. by rewrite app_assoc. Qed.
Lemma alternating_tail {A} (x : A) l : alternating (x :: l) → alternating l.
Proof. inversion 1; [constructor|done]. Qed.
Lemma effects_known l : Forall u32 l →
  alternating (FSEventsCreated :: created_removed (effects FSEventsCreated l)) ∧
  alternating (FSEventsRemoved :: created_removed (effects FSEventsRemoved l)) ∧
  (∀ e, e ∈ effects FSEventsCreated l ∨ e ∈ effects FSEventsRemoved l → e .& FSEventsRemoved ≠ 0 → e .& fs_write = 0).
Proof.
  induction 1 as [|set l Hu Hl IH].
  { split_and!; [constructor..|]. intros e [H|H]; by apply elem_of_nil in H. }
  destruct IH as (IH1&IH2&IH3). cbn [effects].
  destruct (strip1_created set) as (A1&A2&A3&A4). destruct (strip1_removed set) as (B1&B2&B3).
  rewrite A3, B3. split_and!.
  - rewrite created_removed_cons by (eapply incl_u32; [apply strip1_incl|done]). rewrite A1, A2.
    rewrite (decide_True (P:=0 = 0)) by done. destruct (decide (set .& FSEventsRemoved = 0)) as [Hz|Hz]; simpl; [done|].
    constructor; [done|]. done.
  - rewrite created_removed_cons by (eapply incl_u32; [apply strip1_incl|done]). rewrite B1, B2.
    rewrite (decide_True (P:=0 = 0)) by done. destruct (decide (set .& FSEventsCreated = 0)) as [Hz|Hz]; simpl; [done|].
    constructor; [done|]. done.
  - intros e. rewrite !elem_of_cons. intros [[-> |H]|[-> |H]].
    + rewrite A2. done.
    + intros HR. apply IH3; [|done]. destruct (decide _) in H; [by left|by right].
    + rewrite B1. done.
    + intros HR. apply IH3; [|done]. destruct (decide _) in H; [by right|by left].
Qed.
Lemma effects_start l : Forall u32 l → clear_start l →
  alternating (created_removed (effects 0 l)) ∧
  (∀ e, e ∈ effects 0 l → e .& FSEventsRemoved ≠ 0 → e .& fs_write = 0).
Proof.
  induction 1 as [|set l Hu Hl IH]; intros Hc.
  { split; [constructor|]. intros e H. by apply elem_of_nil in H. }
  destruct (effects_known l Hl) as (K1&K2&K3).
  assert (incl_ev (strip1 0 set).2 set) as Hi by apply strip1_incl.
  assert (u32 (strip1 0 set).2) as Hus by (by eapply incl_u32).
  cbn [effects]. rewrite created_removed_cons by done. clear Hus Hi.
  unfold strip1. change (0 =? FSEventsCreated) with false. change (0 =? FSEventsRemoved) with false. cbn iota.
  destruct (both_cases set) as [Hb|[Hb|[Hb|Hb]]]; rewrite Hb.
  - rewrite N.eqb_refl. cbn [fst snd from_option default]. rewrite (sub_both _ _ _ incl_C Hb), (sub_both _ _ _ incl_R Hb). simpl.
    split; [done|]. intros e [-> |H]%elem_of_cons; [|apply K3; by left]. rewrite (sub_both _ _ _ incl_R Hb). done.
  - change (FSEventsRemoved =? FSEventsCreated) with false. rewrite N.eqb_refl. cbn [fst snd].
    rewrite !(minus_keep set fs_write) by done. rewrite (sub_both _ _ _ incl_C Hb), (sub_both _ _ _ incl_R Hb). simpl.
    split; [done|]. intros e [-> |H]%elem_of_cons; [|apply K3; by right]. intros _. apply minus_self.
  - change (0 =? FSEventsCreated) with false. change (0 =? FSEventsRemoved) with false. cbn [fst snd].
    rewrite (sub_both _ _ _ incl_C Hb), (sub_both _ _ _ incl_R Hb). simpl.
    destruct IH as [I1 I2].
    { intros l1 e l2 -> Hl1. apply (Hc (set :: l1) e l2); [done|]. by constructor. }
    split; [done|]. intros e [-> |H]%elem_of_cons; [|by apply I2]. rewrite (sub_both _ _ _ incl_R Hb). done.
  - exfalso. by apply (Hc [] set l).
Qed.

(** ** The table of watches *)
Lemma fs_os_lookup m p : fs_os m !! p = (λ x, (fw_events x, fw_isrec x)) <$> m !! p.
Proof. apply lookup_fmap. Qed.
Lemma fs_call_ok P start m c m' : legal P (fs_os m) c → fs_call start m c = (m', None) →
  fs_os m' = os_step (fs_os m) (c, true).
Proof.
  assert (∀ p k e m', fs_watch start m p e k = (m', None) → fs_os m' = <[p := (e, k)]> (fs_os m)) as HW.
  { intros p k e n. unfold fs_watch. destruct (m !! p); [done|]. destruct (start p); [|done]. intros [= <-].
    unfold fs_os. by rewrite fmap_insert. }
  assert (∀ p m', fs_unwatch m p = (m', None) → fs_os m' = delete p (fs_os m)) as HU.
  { intros p n. unfold fs_unwatch. destruct (m !! p); [|done]. intros [= <-]. unfold fs_os. by rewrite fmap_delete. }
  intros Hl. destruct c as [p e|p|p old new|p e|p|p q old new]; cbn [fs_call]; try (by apply HW); try (by apply HU).
  - cbn [legal] in Hl. unfold fs_rewatch. destruct (m !! p) as [x|] eqn:Hp; [|done]. destruct (_ =? _); [|done]. intros [= <-].
    unfold fs_os. by rewrite fmap_insert.
  - cbn [legal] in Hl. destruct Hl as (H1&_&H2). rewrite fs_os_lookup in H1. unfold fs_recrewatch.
    destruct (bool_decide_reflect (p = q)) as [->|Hne].
    + destruct (m !! q) as [x|] eqn:Hq; [|done]. simpl in H1. injection H1 as H1. rewrite H1.
      destruct (N.eqb_spec old new) as [->|]; [|rewrite N.eqb_refl]; intros [= <-]; simpl; unfold fs_os;
        rewrite fmap_insert; simpl; by rewrite insert_delete_insert.
    + rewrite fs_os_lookup in H2. destruct (m !! q) as [y|] eqn:Hq; [by specialize (H2 Hne)|].
      unfold fs_unwatch. destruct (m !! p) as [x|]; [|done]. unfold fs_watch. rewrite lookup_delete_ne, Hq by done.
      destruct (start q); [|done]. intros [= <-]. simpl. unfold fs_os. rewrite fmap_insert, fmap_delete. done.
Qed.

(** ** Histories of batches and changes of the watch *)
Lemma dispatch1_events es k x ev : fw_events (dispatch1 es k x ev).1 = fw_events x ∧ fw_isrec (dispatch1 es k x ev).1 = fw_isrec x.
Proof.
  unfold dispatch1, strip. destruct (negb _); [done|]. destruct (negb _); [done|]. destruct (_ && _); [done|].
  destruct (fs_base _ _ _ _); [|done]. destruct (strip1 _ _) as [[v|] e]; destruct (_ =? 0); done.
Qed.
Lemma fs_dispatch_run x evs : fs_dispatch x evs = fs_run x (Item (fw_events x) (fw_isrec x) <$> evs).
Proof. unfold fs_dispatch, fs_run. generalize (x, @nil (fsevent * N)). generalize (fw_events x) (fw_isrec x).
  intros e k. induction evs as [|ev evs IH]; intros [y o]; [done|]. cbn [fmap list_fmap foldl it_events it_isrec it_ev].
  destruct (dispatch1 e k y ev). apply IH.
Qed.
Lemma fs_run_events x l : fw_events (fs_run x l).1 = fw_events x ∧ fw_isrec (fs_run x l).1 = fw_isrec x.
Proof.
  revert x. induction l as [|i l IH]; intros x; [done|]. rewrite fs_run_cons. cbn [fst].
  destruct (IH (dispatch1 (it_events i) (it_isrec i) x (it_ev i)).1) as [-> ->]. apply dispatch1_events.
Qed.
Lemma fs_run_app x l1 l2 : fs_run x (l1 ++ l2) =
  ((fs_run (fs_run x l1).1 l2).1, (fs_run x l1).2 ++ (fs_run (fs_run x l1).1 l2).2).
Proof. unfold fs_run at 1. rewrite foldl_app. fold (fs_run x l1). destruct (fs_run x l1) as [y o]. by rewrite fs_run_acc. Qed.
(** The set and the kind stored in the watch do not matter to [fs_run]. *)
Definition same_but (x y : fwatch) : Prop := fw_prev x = fw_prev y ∧ fw_path x = fw_path y ∧ fw_flushed x = fw_flushed y.
Lemma dispatch1_same es k x y ev : same_but x y →
  same_but (dispatch1 es k x ev).1 (dispatch1 es k y ev).1 ∧ (dispatch1 es k x ev).2 = (dispatch1 es k y ev).2.
Proof.
  intros (H1&H2&H3). unfold dispatch1, strip. rewrite H1, H2, H3.
  destruct (negb _); [done|]. destruct (negb _); [done|]. destruct (_ && _); [done|].
  destruct (fs_base _ _ _ _); [|done]. destruct (strip1 _ _) as [[v|] e]; destruct (_ =? 0); cbn [fst snd];
    (split; [|done]); unfold same_but; simpl; by rewrite ?H1, ?H2, ?H3.
Qed.
Lemma fs_run_same x y l : same_but x y → same_but (fs_run x l).1 (fs_run y l).1 ∧ (fs_run x l).2 = (fs_run y l).2.
Proof.
  revert x y. induction l as [|i l IH]; intros x y H; [done|]. rewrite !fs_run_cons. cbn [fst snd].
  destruct (dispatch1_same (it_events i) (it_isrec i) x y (it_ev i) H) as [H1 ->].
  destruct (IH _ _ H1) as [H2 ->]. done.
Qed.
Lemma fs_hist_run ops : ∀ x, (fs_hist x ops).2 = (fs_run x (history (fw_events x) (fw_isrec x) ops)).2.
Proof.
  unfold fs_hist.
  assert (∀ ops x out, foldl hstep (x, out) ops = ((foldl hstep (x, []) ops).1, out ++ (foldl hstep (x, []) ops).2)) as Hacc.
  { clear. induction ops as [|o ops IH]; intros x out; [by rewrite app_nil_r|]. cbn [foldl].
    destruct o as [evs|e k]; cbn [hstep].
    - cbn [fst snd]. destruct (fs_dispatch x evs) as [y o]. rewrite IH, (IH y ([] ++ o)). simpl. by rewrite app_assoc.
    - apply IH. }
  induction ops as [|o ops IH]; intros x; [done|]. cbn [foldl]. destruct o as [evs|e k]; cbn [hstep history fst snd].
  - rewrite fs_run_app. rewrite <-fs_dispatch_run. destruct (fs_dispatch x evs) as [y o] eqn:Hd.
    rewrite Hacc. cbn [fst snd]. rewrite IH. cbn [app]. f_equal.
    destruct (fs_run_events x (Item (fw_events x) (fw_isrec x) <$> evs)) as [E1 E2].
    rewrite <-fs_dispatch_run, Hd in E1, E2. cbn [fst] in E1, E2. by rewrite E1, E2.
  - rewrite IH. cbn [with_events fw_events fw_isrec]. by apply fs_run_same.
Qed.

(** ** Soundness of what is sent *)
Lemma splitflags_in set e : u32 set → e ∈ splitflags set ↔ ∃ j, has set j ∧ e = 2 ^ j.
Proof. intros H. apply (splitflags_spec set H). Qed.
Lemma dispatch1_sound p q i x o : comps_ok fslash p → comps_ok fslash q → fe_path (it_ev i) = render fslash q →
  fw_path x = render fslash p → u32 (fe_flags (it_ev i)) →
  o ∈ (dispatch1 (it_events i) (it_isrec i) x (it_ev i)).2 →
  fw_flushed x = true ∧ fe_flags (it_ev i) .& FSEventsHistoryDone = 0 ∧ concerns p q i ∧ o.1 = it_ev i ∧
  ∃ j, has (fe_flags (it_ev i)) j ∧ has (it_events i) j ∧ o.2 = 2 ^ j.
Proof.
  intros Hp Hq Hev Hx Hu. unfold dispatch1.
  destruct (N.eqb_spec (fe_flags (it_ev i) .& FSEventsHistoryDone) 0) as [Hm|Hm]; cbn [negb]; [|by intros ?%elem_of_nil].
  destruct (fw_flushed x); cbn [negb]; [|by intros ?%elem_of_nil].
  destruct (negb (fe_flags (it_ev i) .& fs_failure =? 0) && (fs_failure .& it_events i =? 0)) eqn:Hf; [by intros ?%elem_of_nil|].
  rewrite Hx, Hev. destruct (fs_base _ _ _ _) as [base|] eqn:Hb; [|by intros ?%elem_of_nil].
  apply fs_base_spec in Hb as (r&->&Hr&->); [|done..]. unfold strip.
  pose proof (strip1_incl (default 0 (fw_prev x !! tail (render fslash r))) (fe_flags (it_ev i))) as Hi.
  destruct (strip1 _ _) as [v e]. cbn [snd] in Hi.
  destruct (e .& it_events i =? 0); cbn [snd]; [by intros ?%elem_of_nil|]. intros (f&->&Hf')%elem_of_list_fmap.
  apply splitflags_in in Hf' as (j&Hj&->); [|apply (incl_u32 _ (fe_flags (it_ev i))); [|done]; intros j0 Hj0; apply has_land in Hj0; apply Hi, Hj0].
  apply has_land in Hj as [Hj1 Hj2].
  split_and!; [done|done| |done|exists j; split_and!; [by apply Hi|done|done]].
  split; [done|]. split; [by exists r|]. split; [rewrite app_length; destruct Hr; [by left|right; lia]|].
  apply andb_false_iff in Hf as [H%negb_false_iff%N.eqb_eq|H%N.eqb_neq]; tauto.
Qed.
Lemma dispatch1_flushed es k x ev :
  fw_flushed (dispatch1 es k x ev).1 = fw_flushed x || negb (fe_flags ev .& FSEventsHistoryDone =? 0).
Proof.
  unfold dispatch1, strip. destruct (negb _); [by rewrite orb_true_r|]. rewrite orb_false_r.
  destruct (fw_flushed x) eqn:E; cbn [negb]; [|done]. destruct (_ && _); [done|].
  destruct (fs_base _ _ _ _); [|done]. destruct (strip1 _ _) as [[v|] e]; destruct (_ =? 0); done.
Qed.
Definition sound_for (p : list str) (i : item) (o : fsevent * N) : Prop :=
  o.1 = it_ev i ∧ (∃ q, clean q ∧ concerns p q i) ∧ ∃ j, has (fe_flags (it_ev i)) j ∧ has (it_events i) j ∧ o.2 = 2 ^ j.
Lemma fs_run_sound p l o : comps_ok fslash p → Forall wf_item l → ∀ x, fw_path x = render fslash p →
  o ∈ (fs_run x l).2 →
  ∃ i, i ∈ (if fw_flushed x then filter (λ i, fe_flags (it_ev i) .& FSEventsHistoryDone = 0) l else live l) ∧ sound_for p i o.
Proof.
  intros Hp Hl. induction Hl as [|i l [(q&Hq&Hev) Hu] Hl IH]; intros x Hx; [by intros ?%elem_of_nil|].
  rewrite fs_run_cons. cbn [snd]. intros [H|H]%elem_of_app.
  - apply (dispatch1_sound p q) in H as (H1&H2&H3&H4&H5); [|done|apply Hq|done..]. rewrite H1. exists i.
    split; [|split; [done|]; split; [by exists q|done]]. apply elem_of_list_filter. split; [done|by left].
  - apply IH in H as (k&Hk&Hs); [|by rewrite dispatch1_path]. exists k. split; [|done].
    rewrite dispatch1_flushed in Hk. cbn [live].
    destruct (decide (fe_flags (it_ev i) .& FSEventsHistoryDone = 0)) as [Hm|Hm].
    + rewrite Hm in Hk. cbn in Hk. rewrite orb_false_r in Hk. destruct (fw_flushed x); [|done].
      apply elem_of_list_filter in Hk as [Hk1 Hk2]. apply elem_of_list_filter. split; [done|by right].
    + apply N.eqb_neq in Hm. rewrite Hm in Hk. cbn [negb] in Hk. rewrite orb_true_r in Hk.
      destruct (fw_flushed x); [|done]. apply elem_of_list_filter in Hk as [Hk1 Hk2].
      apply elem_of_list_filter. split; [done|by right].
Qed.

(** ** Flags the heuristics do not touch *)
Lemma strip1_keeps prev set j : has set j → ¬ has (fs_both .| fs_write) j → has (strip1 prev set).2 j.
Proof.
  intros H Hn. assert (∀ f, incl_ev f (fs_both .| fs_write) → ¬ has f j) as Hf by (intros f Hf K; by apply Hn, Hf).
  assert (¬ has FSEventsCreated j) by (apply Hf; unfold fs_both; bits).
  assert (¬ has FSEventsRemoved j) by (apply Hf; unfold fs_both; bits).
  assert (¬ has fs_write j) by (apply Hf; bits).
  unfold strip1. destruct (prev =? _); [|destruct (prev =? _)].
  - destruct (negb _); cbn [snd]; rewrite ?has_ldiff; tauto.
  - cbn [snd]. rewrite ?has_ldiff. tauto.
  - destruct (_ =? _); cbn [snd]; [tauto|]. destruct (_ =? _); cbn [snd]; rewrite ?has_ldiff; tauto.
Qed.
Lemma sent_kept l : ∀ prev i j, Forall wf_item l → i ∈ l → has (fe_flags (it_ev i)) j → has (it_events i) j →
  ¬ has (fs_both .| fs_write) j →
  (it_ev i, 2 ^ j) ∈ concat (zip_with sent l (effects prev ((λ i, fe_flags (it_ev i)) <$> l))).
Proof.
  induction l as [|k l IH]; intros prev i j Hw Hi H1 H2 H3; [by apply elem_of_nil in Hi|].
  apply Forall_cons in Hw as [[_ Hu] Hw]. cbn [fmap list_fmap effects zip_with concat]. apply elem_of_app.
  apply elem_of_cons in Hi as [-> |Hi]; [left|right; by apply IH].
  unfold sent. apply elem_of_list_fmap. exists (2 ^ j). split; [done|]. apply splitflags_in.
  - apply (incl_u32 _ (fe_flags (it_ev k))); [|done]. intros n Hn0. apply has_land in Hn0. apply (strip1_incl prev), Hn0.
  - exists j. split; [|done]. apply has_land. split; [by apply strip1_keeps|done].
Qed.
Lemma reported_flags S' : ∀ E, length S' = length E → Forall u32 E → Forall (λ i, incl_ev fs_both (it_events i)) S' →
  filter (λ f, f = FSEventsCreated ∨ f = FSEventsRemoved) (snd <$> concat (zip_with sent S' E)) = created_removed E.
Proof.
  induction S' as [|i S' IH]; intros [|e E] HL HE HS; try done. apply Forall_cons in HE as [He HE]. apply Forall_cons in HS as [Hi HS].
  cbn [zip_with concat]. rewrite fmap_app, filter_app, IH by (simpl in HL; first [done|lia]).
  unfold created_removed at 2. rewrite fmap_cons. cbn [concat]. f_equal. unfold sent. rewrite <-list_fmap_compose.
  change (snd ∘ _) with (λ f : N, f). rewrite list_fmap_id.
  rewrite !cr1; [|done|apply (incl_u32 _ e); [intros j Hj; by apply has_land in Hj as [? _]|done]].
  assert (∀ f, incl_ev f fs_both → (e .& it_events i) .& f = e .& f) as Hf.
  { intros f Hf. assert (incl_ev f (it_events i)) as K by (intros j Hj; by apply Hi, Hf).
    rewrite <-N.land_assoc. f_equal. apply N.bits_inj. intros j. rewrite N.land_spec.
    destruct (N.testbit f j) eqn:Ej; [|by rewrite andb_false_r]. by rewrite (K j Ej). }
  by rewrite (Hf _ incl_C), (Hf _ incl_R).
Qed.
Lemma effects_length l : ∀ prev, length (effects prev l) = length l.
Proof. induction l as [|e l IH]; intros prev; [done|]. simpl. by rewrite IH. Qed.
Lemma effects_u32 l : ∀ prev, Forall u32 l → Forall u32 (effects prev l).
Proof.
  induction l as [|e l IH]; intros prev Hl; [constructor|]. apply Forall_cons in Hl as [He Hl]. cbn [effects]. constructor; [|by apply IH].
  eapply incl_u32; [apply strip1_incl|done].
Qed.
Lemma live_sub l i : i ∈ live l → i ∈ l.
Proof.
  induction l as [|k l IH]; [done|]. cbn [live]. destruct (decide _); [intros; right; by apply IH|].
  intros [_ H]%elem_of_list_filter. by right.
Qed.
Lemma seen_wf p q l : Forall wf_item l → Forall wf_item (seen p q l).
Proof.
  rewrite !Forall_forall. intros H i Hi. apply H, live_sub. unfold seen in Hi. by apply elem_of_list_filter in Hi as [_ Hi].
Qed.
