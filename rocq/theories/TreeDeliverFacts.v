(** * TreeDeliverFacts: what the goroutine of an event offers *)
From Verif Require Import Base Event Watchpoint Paths PathsFacts Loop Node NonRec SpecNonRec Rec SpecRec TreeConc SpecTreeConc
  TreeConcFacts SpecTreeDeliver.
Local Open Scope N_scope.

Lemma offered_by_app j n a b : offered_by j n (a ++ b) = offered_by j n a ++ offered_by j n b.
Proof. apply omap_app. Qed.
Lemma takes_app a b : takes (a ++ b) = takes a ++ takes b.
Proof. apply omap_app. Qed.
Lemma reports_app a b : reports (a ++ b) = reports a ++ reports b.
Proof. apply omap_app. Qed.
Lemma offered_by_none j n ls : (∀ ei b, LOffer j n ei b ∉ ls) → offered_by j n ls = [].
Proof.
  induction ls as [|l ls IH]; intros H; [done|].
  change (offered_by j n (l :: ls)) with (offered_by j n ([l] ++ ls)). rewrite offered_by_app, IH.
  - rewrite app_nil_r. destruct l; try done. unfold offered_by. cbn. destruct (decide _) as [[-> ->]|]; [|done].
    exfalso. eapply H. by left.
  - intros ei b Hin. eapply H. by right.
Qed.
Lemma takes_elem ei ls : ei ∈ takes ls → ∃ j, LTake j ei ∈ ls.
Proof.
  unfold takes. rewrite elem_of_list_omap. intros (l&Hin&Hl). destruct l; try done. injection Hl as ->. by eexists.
Qed.

Section facts.
Context (T : tree_ops) (env_good : env → Prop) (call_ok : nop → Prop) (ev_ok : event_info → Prop).
Notation step := (step T env_good call_ok ev_ok).
Notation run := (run T env_good call_ok ev_ok).

(** ** Numbers of goroutines *)
Definition nid (l : lab) : option nat :=
  match l with LCall i _ | LCrit i _ _ | LRet i _ _ | LTake i _ | LOffer i _ _ _ => Some i | _ => None end.
Lemma run_nid ls c : run ls c → ∀ l i, l ∈ ls → nid l = Some i → (i < c_next c)%nat.
Proof.
  induction 1 as [|ls c l c' Hr IH Hs]; [intros ?? Hin; by apply elem_of_nil in Hin|].
  intros l' i Hin Hi. pose proof (li_fresh _ (run_linv _ _ _ _ _ _ Hr)) as Hf.
  assert (∀ i t, c_thr c !! i = Some t → (i < c_next c)%nat) as Hlt.
  { intros j t Hj. destruct (decide (c_next c ≤ j)%nat) as [Hge|]; [|lia]. apply Hf in Hge. congruence. }
  assert (c_next c ≤ c_next c')%nat as Hle.
  { inversion Hs; subst; simpl; try lia.
    - by destruct (decide (length _ < _)%nat).
    - by destruct fwd. }
  apply elem_of_app in Hin as [Hin| ->%elem_of_list_singleton]; [specialize (IH _ _ Hin Hi); lia|].
  destruct Hs; simpl in Hi; try discriminate Hi; injection Hi as <-; simpl in *; try lia; by eapply Hlt.
Qed.
Lemma take_fresh a j ei b c : run (a ++ LTake j ei :: b) c → ∀ l, l ∈ a → nid l ≠ Some j.
Proof.
  intros (c1&c2&Hr&Hs)%run_prefix l Hin Hi. inversion Hs; subst.
  apply (run_nid _ _ Hr _ _ Hin) in Hi. lia.
Qed.

(** ** Everything reported is taken, in order *)
Lemma run_takes ls c : run ls c → reports ls = takes ls ++ c_q c.
Proof.
  induction 1 as [|ls c l c' Hr IH Hs]; [done|]. rewrite reports_app, takes_app, IH.
  destruct Hs; try (by rewrite !app_nil_r).
  - simpl. rewrite app_nil_r, <-app_assoc. done.
  - rewrite H. simpl. rewrite app_nil_r, <-app_assoc. done.
  - simpl. rewrite !app_nil_r. by destruct (decide (length _ < _)%nat).
  - simpl. rewrite !app_nil_r. by destruct fwd.
Qed.
Lemma report_taken l1 ei l2 c : run (l1 ++ LReport ei :: l2) c → c_q c = [] → ∃ j, LTake j ei ∈ l2.
Proof.
  intros Hr Hq. pose proof (run_takes _ _ Hr) as Ht. rewrite Hq, app_nil_r in Ht.
  destruct (run_prefix _ _ _ _ _ _ _ _ Hr) as (c1&c2&Hr1&_). pose proof (run_takes _ _ Hr1) as Ht1.
  rewrite reports_app, takes_app, Ht1, <-app_assoc in Ht. apply app_inv_head in Ht.
  apply takes_elem. change (ei ∈ takes (LReport ei :: l2)). rewrite <-Ht. apply elem_of_app. right. by left.
Qed.

(** ** The offers of a goroutine *)
Notation count n ks := (length (filter (KUser n =.) ks)).
Definition gst (ls : list lab) (c : cfg) (j : nat) (ei : event_info) : Prop :=
  (c_thr c !! j = Some (TEvt ei) ∧ ∀ n, offered_by j n ls = []) ∨
  ∃ la lb c0 E ks fwd, ls = la ++ lb ∧ run la c0 ∧ LTake j ei ∈ la ∧ (∀ n, offered_by j n la = []) ∧
    env_good E ∧ t_disp T E (st_tree (c_st c0)) ei = (ks, fwd) ∧
    ((∃ dn rest, c_thr c !! j = Some (TSend ei rest fwd) ∧ ks = dn ++ rest ∧
        ∀ n, offered_by j n ls = replicate (count n dn) ei) ∨
     ((c_thr c !! j = None ∨ c_thr c !! j = Some (TFwd ei)) ∧ ∀ n, offered_by j n ls = replicate (count n ks) ei)).
Lemma offered_by_snoc j n ls l :
  (∀ ei b, l ≠ LOffer j n ei b) → offered_by j n (ls ++ [l]) = offered_by j n ls.
Proof.
  intros H. rewrite offered_by_app, (offered_by_none _ _ [l]); [apply app_nil_r|].
  intros ei b Hin%elem_of_list_singleton. by eapply H.
Qed.
(** A step of another goroutine. *)
Lemma gst_frame ls c j ei l c' :
  gst ls c j ei → c_thr c' !! j = c_thr c !! j → (∀ n ei' b, l ≠ LOffer j n ei' b) → gst (ls ++ [l]) c' j ei.
Proof.
  intros Hg Heq Hl. unfold gst. rewrite Heq.
  assert (∀ n, offered_by j n (ls ++ [l]) = offered_by j n ls) as Ho by (intros n; by apply offered_by_snoc).
  destruct Hg as [[H1 H2]|(la&lb&c0&E&ks&fwd&->&Hr&Ht&Hno&HE&Hd&Hc)].
  - left. split; [done|]. intros n. by rewrite Ho.
  - right. exists la, (lb ++ [l]), c0, E, ks, fwd. split; [by rewrite app_assoc|]. split_and!; try done.
    destruct Hc as [(dn&rest&?&?&Hoff)|[? Hoff]]; [left; exists dn, rest; split_and!; try done|right; split; [done|]];
      intros n; by rewrite Ho.
Qed.
Lemma filter_other n (dn : list key) k : k ≠ KUser n → count n (dn ++ [k]) = count n dn.
Proof.
  intros Hk. rewrite filter_app, app_length, filter_cons_False by congruence. rewrite filter_nil. simpl. lia.
Qed.
Lemma filter_same n (dn : list key) : count n (dn ++ [KUser n]) = S (count n dn).
Proof. rewrite filter_app, app_length, filter_cons_True by done. rewrite filter_nil. simpl. lia. Qed.
(** The goroutine makes a send, to a user or not. *)
Lemma gst_send ls c j ei ei' k rest fwd l c' :
  gst ls c j ei → c_thr c !! j = Some (TSend ei' (k :: rest) fwd) → c_thr c' !! j = Some (TSend ei' rest fwd) →
  (match k with KUser n => ∃ b, l = LOffer j n ei' b | _ => ∀ n e b, l ≠ LOffer j n e b end) → gst (ls ++ [l]) c' j ei.
Proof.
  intros Hg Hj Hj' Hl. destruct Hg as [[H1 H2]|(la&lb&c0&E&ks&f&->&Hr&Ht&Hno&HE&Hd&Hc)]; [congruence|].
  destruct Hc as [(dn&rest'&H1&H2&Hoff)|[[H1|H1] _]]; [|congruence..].
  rewrite Hj in H1. injection H1 as -> <- <-.
  right. exists la, (lb ++ [l]), c0, E, ks, fwd. split; [by rewrite app_assoc|]. split_and!; try done.
  left. exists (dn ++ [k]), rest. split_and!; [done|by rewrite <-app_assoc|]. intros n.
  destruct (decide (k = KUser n)) as [->|Hne].
  - destruct Hl as [b ->]. rewrite offered_by_app, Hoff, filter_same, replicate_S_end. f_equal.
    unfold offered_by. cbn. by rewrite decide_True.
  - rewrite filter_other by done. rewrite <-Hoff. apply offered_by_snoc. intros e b ->.
    destruct k as [| |m]; [by eapply Hl..|]. destruct Hl as (b'&[= -> _ _]). done.
Qed.
Lemma gst_step ls c l c' : run ls c → step c l c' →
  (∀ j ei, LTake j ei ∈ ls → gst ls c j ei) → ∀ j ei, LTake j ei ∈ ls ++ [l] → gst (ls ++ [l]) c' j ei.
Proof.
  intros Hr Hs IH j ei Hin.
  assert (LTake j ei ∈ ls → (j < c_next c)%nat) as Hlt by (intros Hj; by eapply (run_nid _ _ Hr (LTake j ei))).
  assert (∀ i ei', c_thr c !! i = Some ei' → (i < c_next c)%nat) as Hfr.
  { intros i t Hi. destruct (decide (c_next c ≤ i)%nat) as [Hge|]; [|lia].
    apply (li_fresh _ (run_linv _ _ _ _ _ _ Hr)) in Hge. congruence. }
  apply elem_of_app in Hin as [Hin|Hl%elem_of_list_singleton].
  2: { (* the dispatcher starts it *) subst l. inversion Hs; subst. left. split; [apply lookup_insert|].
    intros n. apply offered_by_none. intros e b [Hin|Hin%elem_of_list_singleton]%elem_of_app; [|done].
    apply (run_nid _ _ Hr) with (i := c_next c) in Hin; [lia|done]. }
  specialize (IH _ _ Hin). specialize (Hlt Hin).
  assert (∀ i t, c_thr c !! i = Some t → (∃ o pc, t = TCall o pc) → i ≠ j) as Hcall.
  { intros i t Hi (o&pc&->) ->. destruct IH as [[? _]|(?&?&?&?&?&?&_&_&_&_&_&_&[(?&?&?&_)|[[?|?] _]])]; congruence. }
  destruct Hs; simpl.
  - apply (gst_frame _ c); [done| |done]. simpl. rewrite lookup_insert_ne by lia. done.
  - by apply (gst_frame _ c).
  - apply (gst_frame _ c); [done| |done]. simpl. rewrite lookup_insert_ne by lia. done.
  - apply (gst_frame _ c); [done| |done]. simpl. rewrite lookup_insert_ne by eauto. done.
  - apply (gst_frame _ c); [done| |done]. simpl. rewrite lookup_insert_ne by eauto. done.
  - apply (gst_frame _ c); [done| |done]. simpl. rewrite lookup_insert_ne by eauto. done.
  - apply (gst_frame _ c); [done| |done]. simpl. rewrite lookup_insert_ne by eauto. done.
  - apply (gst_frame _ c); [done| |done]. simpl. rewrite lookup_delete_ne by eauto. done.
  - destruct (decide (i = j)) as [->|Hne].
    2: { apply (gst_frame _ c); [done| |done]. simpl. by rewrite lookup_insert_ne. }
    destruct IH as [[H3 H4]|(?&?&?&?&?&?&_&_&_&_&_&_&[(?&?&?&_)|[[?|?] _]])]; [|congruence..].
    rewrite H in H3. injection H3 as ->. right. exists ls, [LTau], c, E, ks, fwd. split_and!; try done.
    left. exists [], ks. split_and!; [apply lookup_insert|done|]. intros n. by rewrite offered_by_snoc.
  - destruct (decide (i = j)) as [->|Hne].
    + eapply (gst_send _ c); [done|done|apply lookup_insert|]. simpl. by eexists.
    + apply (gst_frame _ c); [done| |congruence]. simpl. by rewrite lookup_insert_ne.
  - assert (c_thr (set_thr (if decide (length (c_rec c) < buffer)%nat then set_rec c (c_rec c ++ [ei0]) else c) i (TSend ei0 ks fwd)) =
        <[i := TSend ei0 ks fwd]> (c_thr c)) as Heq by by destruct (decide (length _ < _)%nat).
    destruct (decide (i = j)) as [->|Hne].
    + eapply (gst_send _ c); [done|done|rewrite Heq; apply lookup_insert|done].
    + apply (gst_frame _ c); [done| |done]. rewrite Heq. by rewrite lookup_insert_ne.
  - destruct (decide (i = j)) as [->|Hne].
    + eapply (gst_send _ c); [done|done|apply lookup_insert|done].
    + apply (gst_frame _ c); [done| |done]. simpl. by rewrite lookup_insert_ne.
  - destruct (decide (i = j)) as [->|Hne].
    + destruct IH as [[H3 H4]|(la&lb&c0&E&ks&f&->&Hr0&Ht&Hno&HE&Hd&[(dn&rest&H1&H2&Hoff)|[[?|?] _]])]; [congruence| |congruence..].
      rewrite H in H1. injection H1 as -> <- <-. rewrite app_nil_r in H2. subst dn.
      right. exists la, (lb ++ [LTau]), c0, E, ks, fwd. split; [by rewrite app_assoc|]. split_and!; try done.
      right. split.
      * destruct fwd; simpl; [right; apply lookup_insert|left; apply lookup_delete].
      * intros n. by rewrite offered_by_snoc.
    + apply (gst_frame _ c); [done| |done]. destruct fwd; simpl; [by rewrite lookup_insert_ne|by rewrite lookup_delete_ne].
  - destruct (decide (i = j)) as [->|Hne].
    + destruct IH as [[H3 H4]|(la&lb&c0&E&ks&f&->&Hr0&Ht&Hno&HE&Hd&[(dn&rest&H1&H2&Hoff)|[_ Hoff]])]; [congruence..|].
      right. exists la, (lb ++ [LTau]), c0, E, ks, f. split; [by rewrite app_assoc|]. split_and!; try done.
      right. split; [left; apply lookup_delete|]. intros n. by rewrite offered_by_snoc.
    + apply (gst_frame _ c); [done| |done]. simpl. by rewrite lookup_delete_ne.
  - by apply (gst_frame _ c).
  - by apply (gst_frame _ c).
  - by apply (gst_frame _ c).
  - by apply (gst_frame _ c).
  - by apply (gst_frame _ c).
  - by apply (gst_frame _ c).
Qed.
Lemma run_gst ls c : run ls c → ∀ j ei, LTake j ei ∈ ls → gst ls c j ei.
Proof.
  induction 1 as [|ls c l c' Hr IH Hs]; [intros ?? Hin; by apply elem_of_nil in Hin|]. by eapply gst_step.
Qed.
(** What a goroutine that has made its sends has offered: what dispatching gives in the
    state in which it got the lock. *)
Lemma sent_all ls c j ei : run ls c → LTake j ei ∈ ls → sends_made c j →
  ∃ la lb c0 E, ls = la ++ lb ∧ run la c0 ∧ LTake j ei ∈ la ∧ (∀ n, offered_by j n la = []) ∧ env_good E ∧
    ∀ n, offered_by j n ls = replicate (count n (t_disp T E (st_tree (c_st c0)) ei).1) ei.
Proof.
  intros Hr Hin Hs. destruct (run_gst _ _ Hr _ _ Hin) as [[H1 _]|(la&lb&c0&E&ks&fwd&->&Hr0&Ht&Hno&HE&Hd&Hc)].
  - destruct Hs as [?|[? ?]]; congruence.
  - exists la, lb, c0, E. split_and!; try done. rewrite Hd. destruct Hc as [(?&?&?&_)|[_ ?]]; [|done].
    destruct Hs as [?|[? ?]]; congruence.
Qed.
(** The moment it got the lock is after everything that came before it was started. *)
Lemma take_prefix m j ei b la lb c : run (m ++ LTake j ei :: b) c → m ++ LTake j ei :: b = la ++ lb → LTake j ei ∈ la →
  ∃ la', la = m ++ LTake j ei :: la'.
Proof.
  intros Hr Heq Hin. apply app_eq_inv in Heq as [(k&E1&E2)|(k&E1&E2)].
  - subst m. exfalso. eapply (take_fresh _ _ _ _ _ Hr (LTake j ei)); [apply elem_of_app; by left|done].
  - subst la. destruct k as [|x k].
    + exfalso. eapply (take_fresh _ _ _ _ _ Hr (LTake j ei)); [by rewrite app_nil_r in Hin|done].
    + injection E2 as <- ->. by exists k.
Qed.

(** ** Whose event it is *)
Lemma run_whose ls c : run ls c →
  (∀ j t ei, c_thr c !! j = Some t → (t = TEvt ei ∨ (∃ ks fwd, t = TSend ei ks fwd)) → LTake j ei ∈ ls) ∧
  ∀ j n ei b, LOffer j n ei b ∈ ls → LTake j ei ∈ ls.
Proof.
  induction 1 as [|ls c l c' Hr [IH1 IH2] Hs].
  { split; [intros j t ei; simpl; by rewrite lookup_empty|intros ???? Hin; by apply elem_of_nil in Hin]. }
  assert (∀ j t ei, c_thr c' !! j = Some t → (t = TEvt ei ∨ (∃ ks fwd, t = TSend ei ks fwd)) →
    (∃ t', c_thr c !! j = Some t' ∧ (t' = TEvt ei ∨ (∃ ks fwd, t' = TSend ei ks fwd))) ∨ l = LTake j ei) as Hthr.
  { intros j t ei Hj Ht. destruct Hs; simpl in Hj; try (left; by exists t);
      try (apply lookup_insert_Some in Hj as [[<- <-]|[? Hj]]; [|left; by exists t]);
      try (apply lookup_delete_Some in Hj as [? Hj]; left; by exists t);
      try (destruct Ht as [?|(?&?&?)]; discriminate).
    - right. destruct Ht as [[= ->]|(?&?&?)]; [done|discriminate].
    - left. destruct Ht as [?|(?&?&[= -> -> ->])]; [discriminate|]. eexists. split; [done|by left].
    - left. destruct Ht as [?|(?&?&[= -> -> ->])]; [discriminate|]. eexists. split; [done|right; eauto].
    - left. assert (c_thr (set_thr (if decide (length (c_rec c) < buffer)%nat then set_rec c (c_rec c ++ [ei0]) else c) i (TSend ei0 ks fwd)) =
        <[i := TSend ei0 ks fwd]> (c_thr c)) as Heq by by destruct (decide (length _ < _)%nat).
      unfold set_thr in Heq. simpl in Heq. rewrite Heq in Hj.
      apply lookup_insert_Some in Hj as [[<- <-]|[? Hj]]; [|by exists t].
      destruct Ht as [?|(?&?&[= -> -> ->])]; [discriminate|]. eexists. split; [done|right; eauto].
    - left. destruct Ht as [?|(?&?&[= -> -> ->])]; [discriminate|]. eexists. split; [done|right; eauto].
    - destruct fwd; simpl in Hj.
      + apply lookup_insert_Some in Hj as [[<- <-]|[? Hj]]; [destruct Ht as [?|(?&?&?)]; discriminate|left; by exists t].
      + apply lookup_delete_Some in Hj as [? Hj]. left. by exists t. }
  split.
  - intros j t ei Hj Ht. rewrite elem_of_app. destruct (Hthr _ _ _ Hj Ht) as [(t'&Hj'&Ht')| ->]; [left; by eapply IH1|right; by left].
  - intros j n ei b [Hin|Hin%elem_of_list_singleton]%elem_of_app; rewrite elem_of_app; left; [by eapply IH2|].
    subst l. inversion Hs; subst. eapply IH1; [done|right; eauto].
Qed.
(** A goroutine that has offered something to a channel: dispatching in the state in which it
    got the lock gives the channel. *)
Lemma sent_some ls c j n ei b : run ls c → LOffer j n ei b ∈ ls →
  ∃ la lb c0 E, ls = la ++ lb ∧ run la c0 ∧ LTake j ei ∈ la ∧ (∀ m, offered_by j m la = []) ∧ env_good E ∧
    (0 < count n (t_disp T E (st_tree (c_st c0)) ei).1)%nat.
Proof.
  intros Hr Ho. pose proof (proj2 (run_whose _ _ Hr) _ _ _ _ Ho) as Hin.
  assert (offered_by j n ls ≠ []) as Hne.
  { intros Hz. assert (ei ∈ offered_by j n ls) as He; [|rewrite Hz in He; by apply elem_of_nil in He].
    apply elem_of_list_omap. eexists. split; [exact Ho|]. simpl. by rewrite decide_True. }
  destruct (run_gst _ _ Hr _ _ Hin) as [[_ Hz]|(la&lb&c0&E&ks&fwd&->&Hr0&Ht&Hno&HE&Hd&Hc)]; [by rewrite Hz in Hne|].
  exists la, lb, c0, E. split_and!; try done. rewrite Hd. simpl.
  destruct Hc as [(dn&rest&_&->&Hz)|[_ Hz]]; rewrite Hz in Hne.
  - rewrite filter_app, app_length. destruct (count n dn); [done|]. simpl. lia.
  - destruct (count n ks); [done|lia].
Qed.
Lemma crit_ok ls c i o r : run ls c → LCrit i o r ∈ ls → call_ok o.
Proof.
  intros Hr (a&b&->)%elem_of_list_split. destruct (run_prefix _ _ _ _ _ _ _ _ Hr) as (c1&c2&Hr1&Hs).
  inversion Hs as [| | | | |? ? ? ? ? ? Hi| | | | | | | | | | | | | |]; subst.
  by destruct (ki_thr _ _ _ (run_kinv _ _ _ _ _ _ Hr1) _ _ _ Hi).
Qed.

(** ** Histories *)
Context (dirs : event_info → trace → Prop) (exec : trace → st → Prop) (P : platform).
Context (HT : tree_spec T env_good call_ok ev_ok exec P).
Context (Hdirs : ∀ tr s E ei, exec tr s → env_good E → ev_ok ei → st_panic (t_int T E s ei) = false →
  ∃ t, dirs ei t ∧ exec (tr ++ t) (t_int T E s ei)).
Lemma run_history ls c : run ls c → ∃ tr, history dirs ls tr ∧ exec tr (c_st c).
Proof.
  induction 1 as [|ls c l c' Hr IH Hs]; [exists []; split; [constructor|apply (ts_init _ _ _ _ _ _ HT)]|].
  destruct IH as (tr&Hl&Hx).
  assert ((∀ i o r, l ≠ LCrit i o r) → (∀ ei, l ≠ LInt ei) → c_st c' = c_st c →
    ∃ tr, history dirs (ls ++ [l]) tr ∧ exec tr (c_st c')) as Hother.
  { intros ?? ->. exists tr. split; [by constructor|done]. }
  inversion Hs; subst; try (by apply Hother).
  - exists (tr ++ [(o, r)]). split; [by constructor|]. simpl. eapply (ts_call _ _ _ _ _ _ HT); try done.
    by destruct (ki_thr _ _ _ (run_kinv _ _ _ _ _ _ Hr) _ _ _ H).
  - apply Hother; [done..|]. by destruct (decide (length _ < _)%nat).
  - apply Hother; [done..|]. by destruct fwd.
  - pose proof (di_int _ _ _ _ (run_dinv _ _ _ _ _ _ Hr)) as He. rewrite H in He.
    destruct (Hdirs tr (c_st c) E ei Hx H0 He H2) as (t&Ht&Hx').
    exists (tr ++ t). split; [by constructor|done].
Qed.
Definition from (b : list lab) (x : nop * result) : Prop :=
  (∃ k, LCrit k x.1 x.2 ∈ b) ∨ ∃ ei t, LInt ei ∈ b ∧ dirs ei t ∧ x ∈ t.
Lemma from_snoc b l x : from b x → from (b ++ [l]) x.
Proof.
  intros [(k&?)|(ei&t&?&?&?)]; [left; exists k; apply elem_of_app; by left|right].
  exists ei, t. split_and!; [apply elem_of_app; by left|done|done].
Qed.
Lemma history_from ls tr : history dirs ls tr → Forall (from ls) tr.
Proof.
  induction 1 as [|ls tr i o r Hh IH|ls tr ei t Hh IH Ht|ls tr l Hh IH H1 H2]; [apply Forall_nil_2|..].
  - apply Forall_app. split; [eapply Forall_impl; [exact IH|intros x; apply from_snoc]|].
    apply Forall_singleton. left. exists i. apply elem_of_app. right. by left.
  - apply Forall_app. split; [eapply Forall_impl; [exact IH|intros x; apply from_snoc]|].
    apply Forall_forall. intros x Hx. right. exists ei, t. split_and!; [|done|done]. apply elem_of_app. right. by left.
  - eapply Forall_impl; [exact IH|intros x; apply from_snoc].
Qed.
Lemma history_split a i o r b tr : history dirs (a ++ LCrit i o r :: b) tr →
  ∃ t1 t2, tr = t1 ++ (o, r) :: t2 ∧ Forall (from b) t2.
Proof.
  revert tr. induction b as [|l b IH] using rev_ind; intros tr Hh.
  - inversion Hh as [Ha|? tr0 ? ? ? ? Ha|? tr0 ? ? ? ? Ha|? tr0 ? ? H1 H2 Ha]; [by destruct a|..]; apply app_inj_tail in Ha as [-> Ha]; subst.
    + injection Ha as -> -> ->. exists tr0, []. split; [done|apply Forall_nil_2].
    + done.
    + by edestruct H1.
  - assert (∀ t2, Forall (from b) t2 → Forall (from (b ++ [l])) t2) as Hup.
    { intros t2 Hf. eapply Forall_impl; [exact Hf|intros x; apply from_snoc]. }
    rewrite app_comm_cons, app_assoc in Hh.
    inversion Hh as [Ha|? tr0 i' o' r' Hh' Ha|? tr0 ei t Hh' Ht Ha|? tr0 l' Hh' H1 H2 Ha]; [by destruct a|..]; apply app_inj_tail in Ha as [Ha Hb]; subst;
      destruct (IH _ Hh') as (t1&t2&->&Hf%Hup).
    + exists t1, (t2 ++ [(o', r')]). split; [by rewrite <-app_assoc|]. apply Forall_app. split; [done|].
      apply Forall_singleton. left. exists i'. apply elem_of_app. right. by left.
    + exists t1, (t2 ++ t). split; [by rewrite <-app_assoc|]. apply Forall_app. split; [done|].
      apply Forall_forall. intros x Hx. right. exists ei, t. split_and!; [|done|done]. apply elem_of_app. right. by left.
    + by exists t1, t2.
Qed.
(** A Watch that returned, and no Stop of its channel since: after its effect no Stop of
    the channel has an effect. *)
Lemma watch_standing l1 i p isrec n e r l2 rest c tr :
  let ls := l1 ++ LCall i (NWatch p isrec n e) :: l2 ++ LRet i (NWatch p isrec n e) r :: rest in
  run ls c → no_stop_since l1 ls n → history dirs ls tr →
  ∃ t1 t2 b, tr = t1 ++ (NWatch p isrec n e, r) :: t2 ∧ Forall (from b) t2 ∧
    (∀ k r', LCrit k (NStop n) r' ∉ b) ∧ ∀ l, l ∈ b → l ∈ ls.
Proof.
  set (w := NWatch p isrec n e). intros ls Hr Hno Hh.
  assert (LCrit i w r ∈ l1 ++ LCall i w :: l2) as Hc.
  { eapply (ret_crit T env_good call_ok ev_ok _ _ _ _ rest c). rewrite <-app_assoc. exact Hr. }
  apply elem_of_app in Hc as [Hc|[?|Hc]%elem_of_cons]; [|done|].
  { exfalso. eapply (call_fresh T env_good call_ok ev_ok l1 i w); [exact Hr|exact Hc|done]. }
  apply elem_of_list_split in Hc as (x&y&->).
  assert (ls = (l1 ++ LCall i w :: x) ++ LCrit i w r :: (y ++ LRet i w r :: rest)) as Heq.
  { unfold ls. repeat (simpl; rewrite <-?app_assoc). done. }
  rewrite Heq in Hh. destruct (history_split _ _ _ _ _ _ Hh) as (t1&t2&->&Hf).
  exists t1, t2, (y ++ LRet i w r :: rest). split_and!; [done|done| |].
  - intros k r' Hin. apply elem_of_list_split in Hin as (u&v&Hu). rewrite Hu in Heq.
    assert (run (((l1 ++ LCall i w :: x) ++ LCrit i w r :: u) ++ LCrit k (NStop n) r' :: v) c) as Hr2.
    { rewrite <-app_assoc. simpl. simpl in Heq. rewrite <-Heq. exact Hr. }
    destruct (crit_call _ _ _ _ _ _ _ _ _ _ Hr2) as (K1&K2&K3).
    assert (LCall k (NStop n) ∈ ls) as Hk.
    { rewrite Heq. rewrite elem_of_app in K1. rewrite elem_of_app. destruct K1 as [?|K1]; [by left|right].
      apply elem_of_cons in K1 as [?|K1]; [done|]. right. apply elem_of_app. by left. }
    apply Hno in Hk as (o'&r2&Hk). apply (K3 o' r2). rewrite !elem_of_app. left. left. done.
  - intros l Hl. rewrite Heq. apply elem_of_app. right. by right.
Qed.
End facts.
