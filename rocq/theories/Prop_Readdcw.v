(** * The Windows watcher: C46, C47, C48 *)
From Verif Require Import Base Event Paths Node Watchpoint WatchpointFacts Readdcw SpecReaddcw ReaddcwFacts ReaddcwLoop ReaddcwRun ReaddcwLife.
Local Open Scope N_scope.

(** ** C46: the filter given to the OS *)
(** For a set that can be requested, with any internal state attached, the filter consists
    of exactly the native filters implied, and of nothing else. *)
Theorem C46_requested e st : requestable e → incl_ev st onlyMachineStates →
  (∀ i, has (rd_encode (e .| st)) i ↔ native_bit e i) ∧ incl_ev (rd_encode (e .| st)) fileNotifyChangeAll.
Proof.
  intros He Hst. assert (∀ i, has (rd_encode (e .| st)) i ↔ native_bit e i) as K.
  { intros i. assert (rd_encode (e .| st) = rd_encode e) as ->.
    { unfold rd_encode. assert ((e .| st) .& (onlyNGlobalEvents .| onlyNotifyChanges) = e .& (onlyNGlobalEvents .| onlyNotifyChanges)) as ->; [|done].
      apply has_ext. intros j. rewrite !has_land, has_lor.
      assert (disj_ev onlyMachineStates (onlyNGlobalEvents .| onlyNotifyChanges)) as K by (apply land_zero_disj; by vm_compute).
      specialize (K j). split; [|intros [H1 H2]; split; [by left|done]]. intros [[H1|H1] H2]; [done|]. destruct (K (Hst j H1) H2). }
    rewrite encode_full by (by apply requestable_26). split; [|by left]. intros [|[H1 H2]]; [done|]. exfalso. by eapply requestable_others. }
  split; [done|]. intros i (r&f&H&_&Hi)%K. revert i Hi.
  assert (Forall (λ x : N * N, fileNotifyChangeAll .& x.2 = x.2) implied) as Hall by (repeat constructor).
  rewrite Forall_forall in Hall. apply land_eq_incl. exact (Hall _ H).
Qed.
(** A directory marker selects changes of directory names, whatever else is in the set. *)
Theorem C46_directories f : f .& dirmarker ≠ 0 → rd_encode f = FileNotifyChangeDirName.
Proof.
  intros H. unfold rd_encode. assert (f .& (onlyNGlobalEvents .| onlyNotifyChanges) .& dirmarker = f .& dirmarker) as ->.
  { rewrite <-N.land_assoc. f_equal. }
  apply N.eqb_neq in H. by rewrite H.
Qed.
(** Every other set: the bits 7, 9, 10, 11, 24, 25 and 27 are passed through, the rest is as
    for the sets that can be requested.  So the statement is false of sets with such a bit,
    *)
Theorem C46_any f i : f .& dirmarker = 0 → has (rd_encode f) i ↔ native_bit f i ∨ has f i ∧ i ∈ [7; 9; 10; 11; 24; 25; 27].
Proof.
  intros H. assert (has others i ↔ i ∈ [7; 9; 10; 11; 24; 25; 27]) as <-.
  { split.
    - intros Hi. assert (i < 28) as Hlt. { destruct (N.lt_ge_cases i 28) as [|Hge]; [done|]. exfalso. unfold has, others in Hi. rewrite N.bits_above_log2 in Hi; [done|]. eapply N.lt_le_trans; [|exact Hge]. by vm_compute. }
      assert (Forall (λ j, N.testbit others (N.of_nat j) = true → N.of_nat j ∈ [7; 9; 10; 11; 24; 25; 27]) (seq 0 28)) as K.
      { rewrite Forall_forall. assert (forallb (λ j, negb (N.testbit others (N.of_nat j)) || bool_decide (N.of_nat j ∈ [7; 9; 10; 11; 24; 25; 27])) (seq 0 28) = true) as K by (by vm_compute).
        rewrite forallb_forall in K. intros j Hj Hb. specialize (K j ltac:(by apply elem_of_list_In)). rewrite Hb in K. by apply bool_decide_eq_true in K. }
      rewrite Forall_forall in K. specialize (K (N.to_nat i)). rewrite N2Nat.id in K. apply K; [|done]. apply elem_of_seq. lia.
    - rewrite !elem_of_cons. intros [->|[->|[->|[->|[->|[->|[->|Hi]]]]]]]; try by vm_compute. by apply elem_of_nil in Hi. }
  apply encode_full. apply land_zero_disj in H. destruct (N.testbit f 26) eqn:E; [|done]. destruct (H 26 E). by vm_compute.
Qed.
Theorem C46_internal_refuted : has (rd_encode (Create readdcw .| omit readdcw)) 25 ∧ has (omit readdcw) 25 ∧ ¬ has fileNotifyChangeAll 25.
Proof. split_and!; by vm_compute. Qed.
(** but such a set is refused, *)
Theorem C46_refused s e p r ok0 ok1 old : ¬ requestable e →
  rd_watch s ok0 ok1 p e r = (s, false) ∧ rd_rewatch s ok0 p old e r = (s, false).
Proof.
  intros He. assert (nonzero (e .&^ known_events) = true) as K.
  { apply negb_true_iff, N.eqb_neq. by rewrite known_requestable. }
  unfold rd_watch, rd_rewatch. by rewrite K.
Qed.
(** and whatever happened, in any order, every read issued to the OS is for a set that was
    asked for that directory: for the file names and contents of it or for the names of
    directories. *)
Theorem C46_issued tr s r : rdexec tr s → r ∈ rs_reads s →
  ∃ p e, grip_of s p (r_grip r) ∧ asked tr p e ∧ requestable e ∧
    ((∀ i, has (r_filter r) i ↔ native_bit (e .&^ FileNotifyChangeDirName) i) ∨
     r_filter r = FileNotifyChangeDirName ∧ e .& (FileNotifyChangeDirName .| Create readdcw .| Remove readdcw) ≠ 0).
Proof.
  intros He Hr. destruct (ai_rd _ _ (rdexec_ask _ _ He) r Hr) as (gr&x&G&X&(e&E1&E2&E3)). exists (w_path x), e. split_and!; try done. by exists gr, x.
Qed.
Example C46_ex : requestable (Create readdcw .| Write readdcw) ∧
  rd_encode (Create readdcw .| Write readdcw) = FileNotifyChangeFileName .| FileNotifyChangeAttributes .| FileNotifyChangeSize .| FileNotifyChangeCreation .| FileNotifyChangeSecurity.
Proof. split; [apply known_requestable|]; by vm_compute. Qed.

(** ** C47: what is sent for a record *)
(** The generic event of the action, if and only if it is in the filter. *)
Theorem C47_generic f a ge se : (a, (ge, se)) ∈ actions →
  (rd_decode f a).1 = if decide (f .& ge = 0) then 0 else ge.
Proof.
  intros H. assert (rd_decode f a = gensys f ge se) as -> by exact (send1_gensys f (FN a []) ge se H). unfold gensys. cbn [fst]. destruct (N.eqb_spec (f .& ge) 0) as [E|E]; [by rewrite decide_True|by rewrite decide_False].
Qed.
(** Nothing for an unknown action. *)
Theorem C47_unknown d f a n : (∀ x, (a, x) ∉ actions) → rd_decode f a = (0, 0) ∧ send1 d f (FN a n) = [].
Proof.
  intros H. assert (rd_decode f a = (0, 0)) as K.
  { assert (∀ c x, (c, x) ∈ actions → (a =? c) = false) as Hc.
    { intros c x Hin. apply N.eqb_neq. intros ->. by apply (H x). }
    unfold rd_decode. rewrite !(Hc _ (_, _)) by (unfold actions; rewrite !elem_of_cons; tauto). done. }
  split; [done|]. unfold send1. cbn [fn_action]. by rewrite K.
Qed.
(** The native event of the action is the only one that may be sent besides; it is sent if
    the filter covers the action, *)
Theorem C47_native_partial f a ge se : (a, (ge, se)) ∈ actions →
  ((rd_decode f a).2 = 0 ∨ (rd_decode f a).2 = se) ∧
  (covers f a (bool_decide (f .& dirmarker ≠ 0)) → (rd_decode f a).2 = se) ∧
  ((rd_decode f a).2 ≠ 0 → covers f a (bool_decide (f .& dirmarker ≠ 0)) ∨ covers f FILE_ACTION_MODIFIED true ∨ covers f FILE_ACTION_ADDED (bool_decide (f .& dirmarker ≠ 0))).
Proof.
  intros H. assert (rd_decode f a = gensys f ge se) as -> by exact (send1_gensys f (FN a []) ge se H). unfold gensys. cbn [snd].
  assert (nonzero (f .& dirmarker) = bool_decide (f .& dirmarker ≠ 0)) as ->.
  { destruct (N.eqb_spec (f .& dirmarker) 0) as [E|E]; [by rewrite bool_decide_false by (by intros ?)|by rewrite bool_decide_true]. }
  set (d := bool_decide _). set (c := _ || _ || _).
  assert (c = true ↔ covers f FILE_ACTION_ADDED d ∨ covers f FILE_ACTION_MODIFIED true) as Hc.
  { unfold c, covers. rewrite decide_False by done. rewrite decide_True by done. rewrite !orb_true_iff, !andb_true_iff, !negb_true_iff, !N.eqb_neq.
    destruct d; split; intros K; repeat (destruct K as [K|K]); try (destruct K as [? K]); try done; try (by left); try (by right); left; by (left + right). }
  split_and!.
  - destruct c; [by right|by left].
  - intros K. assert (c = true) as ->; [|done]. apply Hc. unfold covers in *. destruct (decide (a = FILE_ACTION_MODIFIED)); [right|left]; [by rewrite decide_True|by rewrite decide_False].
  - destruct c; [|done]. intros _. destruct (proj1 Hc eq_refl); [by right; right|by right; left].
Qed.
(** but also in other cases: a watch for Create and a filter of contents is sent the native
    event of an addition, though no filter of names is asked for. *)
Theorem C47_native_refuted :
  let f := Create readdcw .| FileNotifyChangeSize in
  ¬ covers f FILE_ACTION_ADDED false ∧ (rd_decode f FILE_ACTION_ADDED).2 = FileActionAdded.
Proof. split; [|by vm_compute]. unfold covers. rewrite decide_False by done. intros K. by apply K. Qed.
(** What reaches the registrations is exact nonetheless.  Let a directory be watched for [e],
    and let [g] be the part of it that some registration asked for.  Of what is sent for a
    record the registration gets the generic event once if it asked for it, and the native
    event once if a native filter it asked for covers the action. *)
Theorem C47_delivered join stat d e st g a n ge se (isdir : bool) :
  requestable e → incl_ev g e → incl_ev st onlyMachineStates → (a, (ge, se)) ∈ actions →
  offers join stat g (send1 d (if isdir then e .| st .| dirmarker else (e .| st) .&^ FileNotifyChangeDirName) (FN a n)) =
  ((if decide (g .& ge = 0)%N then 0 else 1) + (if decide (covers g a isdir) then 1 else 0))%nat.
Proof.
  intros He Hg Hst Ha. set (f := if isdir then _ else _).
  assert (nonzero (f .& dirmarker) = isdir) as Hd.
  { unfold f. destruct isdir.
    - apply negb_true_iff, N.eqb_neq, nonzero_bit. exists 26. rewrite has_land, has_lor. split; [by right|by vm_compute].
    - apply negb_false_iff, N.eqb_eq, land_zero_disj. intros i [[H1|H1]%has_lor _]%has_ldiff H2.
      + by apply (req_disj e dirmarker He ltac:(by vm_compute) i).
      + assert (disj_ev onlyMachineStates dirmarker) as K by (apply land_zero_disj; by vm_compute). by apply (K i), H2; apply Hst. }
  rewrite (offers_send1 join stat d f (FN a n) g ge se); [|..|done|].
  - rewrite Hd. cbn [fn_action]. f_equal.
    + destruct (N.eqb_spec (g .& ge) 0) as [E|E]; [by rewrite decide_True|by rewrite decide_False].
    + destruct (coversb g a isdir) eqn:E.
      * apply coversb_ok in E. by rewrite decide_True.
      * rewrite decide_False; [done|]. intros K%coversb_ok. congruence.
  - intros i H1%Hg. revert i H1. apply req_disj; [done|by vm_compute].
  - rewrite Hd. intros i [[H1 _]%has_land H2]%has_ldiff. unfold f. destruct isdir; [rewrite !has_lor; left; left; by apply Hg|]. apply has_ldiff. split; [|done]. apply has_lor. left. by apply Hg.
Qed.
Example C47_ex :
  let f := Create readdcw .| FileNotifyChangeFileName in
  requestable f ∧ send1 (b "a") f (FN FILE_ACTION_ADDED (b "x")) =
    [RdEvent (b "a") (b "x") fTypeFile FileActionAdded; RdEvent (b "a") (b "x") fTypeFile (Create readdcw)].
Proof. split; [apply known_requestable|]; by vm_compute. Qed.

(** ** C48: the life of a watch *)
(** A Rewatch or an Unwatch is refused while another one is in progress, and changes nothing. *)
Theorem C48_refused s p ok0 ok1 old new r : in_progress s p →
  rd_unwatch s ok0 ok1 p = (s, false) ∧ rd_rewatch s ok0 p old new r = (s, false).
Proof.
  intros H. split.
  - apply (request_busy s (QUnwatch p) ok0 ok1 p H). by left.
  - apply (request_busy s (QRewatch p old new r) ok0 ok1 p H). right. eauto.
Qed.
(** Along every orderly execution (see [orderly_label] for what that leaves out):
    a Rewatch takes effect exactly in the step in which the loop looks at the state for a
    grip of the directory while no other read or completion of it is outstanding; *)
Theorem C48_rewatch_effect_partial tr s l s' p : rdorderly tr s → is_Some (want tr p) → in_progress s p →
  orderly_label tr s l → rdstep s l s' →
  ¬ in_progress s' p ↔ ∃ g ok0 ok1, l = LState g ok0 ok1 ∧ current s p g ∧ ¬ outstanding s p.
Proof. apply rewatch_effect. Qed.
(** until then there is always a completion for the loop to serve; *)
Theorem C48_rewatch_progress_partial tr s p : rdorderly tr s → is_Some (want tr p) → in_progress s p → completion s p.
Proof. apply rewatch_progress. Qed.
(** an Unwatch takes effect in a step of the loop for a grip of the directory, which removes
    the directory from the table and leaves no handle open; *)
Theorem C48_gone_partial tr s p : rdorderly tr s → want tr p = None → ¬ in_progress s p →
  rs_tab s !! p = None ∧ ∀ x, ¬ open_handle s p x.
Proof.
  intros Ho Hw Hn. pose proof (rdorderly_inv _ _ Ho) as J.
  assert (rs_tab s !! p = None) as Ht.
  { destruct (rs_tab s !! p) as [i|] eqn:Ht; [|done]. destruct (at_rest _ _ _ _ J Hn Ht) as (x&_&P&(e&r&W&_)). rewrite P in W. congruence. }
  split; [done|]. intros x (g&gr&wd&Hg&Hop&Hwd&P&_). destruct (ri_dead _ _ J _ _ Hwd) as (e&k&_&_&Hc&_); [rewrite P, Ht; done|].
  destruct (ri_gr _ _ J g gr Hg) as (y&Y1&Y2). rewrite Hwd in Y1. injection Y1 as <-. destruct (decide (g ∈ grips_of wd)) as [Hin|Hin].
  - specialize (Hc g Hin). unfold closed in Hc. by rewrite Hg, Hop in Hc.
  - destruct (Y2 Hin). congruence.
Qed.
Theorem C48_unwatch_effect_partial tr s l s' p : rdorderly tr s → want tr p = None → in_progress s p →
  orderly_label tr s l → rdstep s l s' → ¬ in_progress s' p →
  (∃ g ok0 ok1, l = LState g ok0 ok1 ∧ current s p g) ∧ rs_tab s' !! p = None ∧ ∀ x, ¬ open_handle s' p x.
Proof.
  intros Ho Hw Hp Hl Hs Hn. destruct (ends tr s l s' p Ho Hl Hs Hp Hn) as (g&a&c&->&Hcur). split; [eauto|].
  apply (C48_gone_partial (tr ++ [LState g a c])); [by econstructor| |done]. by rewrite want_other.
Qed.
(** and whenever no operation is in progress for a directory that is to be watched, its open
    handles are those of the set last asked for, each with one read or completion
    outstanding. *)
Theorem C48_settled_partial tr s p e r : rdorderly tr s → want tr p = Some (e, r) → ¬ in_progress s p →
  (∃ l, handles e r l ∧ ∀ x, open_handle s p x ↔ x ∈ l) ∧
  ∀ g gr, rs_grips s !! g = Some gr → g_open gr = true → rs_tab s !! p = Some (g_parent gr) →
    (length (filter (λ x, r_grip x = g) (rs_reads s)) + length (filter (λ x, x.1 = g) (rs_queue s)) + (if decide (rs_pc s = PRead g) then 1 else 0) = 1)%nat.
Proof.
  intros Ho Hw Hn. pose proof (rdorderly_inv _ _ Ho) as J.
  destruct (rs_tab s !! p) as [i|] eqn:Ht; [|by rewrite (ri_want _ _ J p Ht) in Hw].
  destruct (at_rest _ _ _ _ J Hn Ht) as (x&Hx&P&(e'&r'&W&S2&S3&S4&S5&(st&Hst&F1&F2)&S7&S8)). rewrite P, Hw in W. injection W as <- <-.
  assert (incl_ev st onlyMachineStates) as Hinc by (by apply st_incl).
  assert (∀ g gr, rs_grips s !! g = Some gr → g_open gr = true → g_parent gr = i → g ∈ grips_of x) as Hin.
  { intros g gr Hg Hop Hi. destruct (decide (g ∈ grips_of x)) as [|Hni]; [done|]. destruct (ri_gr _ _ J g gr Hg) as (y&Y1&Y2). rewrite Hi, Hx in Y1. injection Y1 as <-.
    destruct (Y2 Hni). congruence. }
  split.
  - exists ((if w_g0 x then [(rd_encode ((e .| st) .&^ DN), r)] else []) ++ (if w_g1 x then [(DN, r)] else [])). split.
    + eexists _, _. split; [done|]. split.
      * destruct (w_g0 x) as [g|]; [|by rewrite decide_True]. destruct F1 as [F1 _]. rewrite decide_False by done. eexists. split; [done|].
        assert ((e .| st) .&^ DN = (e .&^ DN) .| st) as ->.
        { apply has_ext. intros k. rewrite has_lor, !has_ldiff, has_lor. assert (disj_ev onlyMachineStates DN) as K by (apply land_zero_disj; by vm_compute).
          split; [intros [[H1|H1] H2]; [by left|by right]|]. intros [[H1 H2]|H1]; [split; [by left|done]|]. split; [by right|]. intros H2. by apply (K k); [apply Hinc|]. }
        apply (C46_requested (e .&^ DN) st); [|done]. intros k [Hk _]%has_ldiff. by apply S2.
      * destruct (w_g1 x) as [g|]; [destruct F2 as [F2 _]; by rewrite decide_False|by rewrite decide_True].
    + assert (∀ g : nat, rd_encode (e .| st .| dirmarker) = DN) as Hdir.
      { intros _. apply C46_directories, nonzero_bit. exists 26. rewrite has_land, has_lor. split; [by right|by vm_compute]. }
      intros y. split.
      * intros (g&gr&wd&Hg&Hop&Hwd&Pw&->).
        assert (g_parent gr = i) as Hi.
        { destruct (decide (g_parent gr = i)) as [|Hne]; [done|]. exfalso. destruct (ri_dead _ _ J _ _ Hwd) as (e'&k&_&_&Hc&_); [rewrite Pw, Ht; congruence|].
          destruct (ri_gr _ _ J g gr Hg) as (y&Y1&Y2). rewrite Hwd in Y1. injection Y1 as <-. destruct (decide (g ∈ grips_of wd)) as [Hgi|Hgi].
          - specialize (Hc g Hgi). unfold closed in Hc. by rewrite Hg, Hop in Hc.
          - destruct (Y2 Hgi). congruence. }
        pose proof (Hin g gr Hg Hop Hi) as Hgi. unfold grips_of in Hgi. apply elem_of_app in Hgi as [K|K]; apply elem_of_app.
        -- left. destruct (w_g0 x) as [h|]; cbn [ogrip] in K; [|by apply elem_of_nil in K]. apply elem_of_list_singleton in K as ->. destruct F1 as [_ F1]. rewrite Hg in F1. injection F1 as ->.
           cbn [g_filter g_rec]. by left.
        -- right. destruct (w_g1 x) as [h|]; cbn [ogrip] in K; [|by apply elem_of_nil in K]. apply elem_of_list_singleton in K as ->. destruct F2 as [_ F2]. rewrite Hg in F2. injection F2 as ->.
           cbn [g_filter g_rec]. rewrite (Hdir h). by left.
      * intros [K|K]%elem_of_app.
        -- destruct (w_g0 x) as [g|]; [|by apply elem_of_nil in K]. apply elem_of_list_singleton in K as ->. destruct F1 as [_ F1].
           eexists g, _, x. by split_and!.
        -- destruct (w_g1 x) as [g|]; [|by apply elem_of_nil in K]. apply elem_of_list_singleton in K as ->. destruct F2 as [_ F2].
           eexists g, _, x. split_and!; [done|done|done|done|]. cbn [g_filter g_rec]. by rewrite (Hdir g).
  - intros g gr Hg Hop Hi. injection Hi as Hi. pose proof (S7 g (Hin g gr Hg Hop (eq_sym Hi))) as T. unfold tok in T.
    destruct (rs_pc s) as [|h|h] eqn:Hpc.
    + rewrite decide_False by done. lia.
    + destruct (decide (h = g)) as [->|Hne]; [rewrite decide_True by done|rewrite decide_False by congruence]; lia.
    + rewrite decide_False by done. destruct (decide (h = g)) as [->|Hne]; [|lia]. unfold closed in T. rewrite Hg, Hop in T. cbn [negb b2n] in T. lia.
Qed.
(** A Watch for which the OS refuses a handle that is needed returns an error; the directory
    is not in the table, and the handles are the same as before. *)
Theorem C48_watch_fails tr s p e k ok0 ok1 res s' : rdexec tr s → rs_tab s !! p = None →
  e .&^ FileNotifyChangeDirName ≠ 0 ∧ ok0 = false ∨ e .& (FileNotifyChangeDirName .| Create readdcw .| Remove readdcw) ≠ 0 ∧ ok1 = false →
  rdstep s (LReq (QWatch p e k) ok0 ok1 res) s' →
  res = false ∧ rs_tab s' = rs_tab s ∧ ∀ q x, open_handle s' q x ↔ open_handle s q x.
Proof.
  intros Hx Ht Hok Hs. pose proof (rdexec_ask _ _ Hx) as A. remember (LReq (QWatch p e k) ok0 ok1 res) as l eqn:El. destruct Hs as [q ok0' ok1' s' r Hq| | | |]; try discriminate El.
  injection El as -> -> -> ->. cbn [rd_request] in Hq. unfold rd_watch in Hq. destruct (nonzero (e .&^ known_events)); [apply pair_equal_spec in Hq as [<- <-]; done|].
  rewrite Ht in Hq. set (i := rs_next s) in *. set (x0 := Wd e k 0 p None None) in *. set (s1 := set_wd (set_next s (S i)) i x0) in *.
  assert ((recreate s1 ok0 ok1 i).2 = false ∧ (∀ h, h ≠ S i → rs_grips (recreate s1 ok0 ok1 i).1 !! h = rs_grips s !! h) ∧
    (∀ gr, rs_grips (recreate s1 ok0 ok1 i).1 !! S i = Some gr → g_open gr = false ∨ rs_grips s !! S i = Some gr)) as (R1&R2&R3).
  { assert (rs_wds s1 !! i = Some x0) as H1 by apply lookup_insert. unfold recreate. rewrite H1. change (w_filter x0) with e. unfold updateGrip at 1 3 5. rewrite H1.
    destruct (e .&^ FileNotifyChangeDirName =? 0) eqn:E0.
    - cbn [negb]. apply N.eqb_eq in E0. destruct Hok as [[H _]|[H ->]]; [done|]. apply N.eqb_neq in H. rewrite H. unfold updateGrip. cbn [rs_wds set_wd]. rewrite lookup_insert. cbn. eauto.
    - change (the_grip x0 false) with (@None nat). destruct ok0; cbn [negb].
      + destruct Hok as [[_ H]|[H ->]]; [done|]. apply N.eqb_neq in H. rewrite H. unfold updateGrip. cbn [rs_wds set_wd]. rewrite lookup_insert.
        change (the_grip _ true) with (@None nat). cbn [fst snd negb]. split; [done|]. change (rs_next s1) with (S i).
        unfold closeHandle. change (grips_of _) with [S i]. cbn [foldl]. unfold close_grip, register, readDirChanges. cbn [rs_grips set_wd set_grip set_next]. rewrite !lookup_insert.
        cbn [g_open andb g_filter g_rec g_parent rs_grips set_wd set_grip set_next set_io]. rewrite !lookup_insert. cbn [g_open]. split.
        * intros h Hh. cbn [rs_grips set_io set_grip set_wd set_next]. rewrite !lookup_insert_ne by done. done.
        * intros gr. cbn [rs_grips set_io set_grip set_wd set_next]. rewrite lookup_insert. intros [= <-]. by left.
      + cbn. eauto. }
  pose proof (λ j Hj, recreate_frame s1 ok0 ok1 i j Hj) as Hf. destruct (recreate s1 ok0 ok1 i) as [s2 b2]. cbn [fst snd] in *. subst b2. apply pair_equal_spec in Hq as [<- <-].
  split_and!; [done|by rewrite (proj2 (Hf (S i) ltac:(lia)))|].
  assert (∀ j, j ≠ i → rs_wds s2 !! j = rs_wds s !! j) as Hw.
  { intros j Hj. rewrite (proj1 (Hf j Hj)). unfold s1. cbn [rs_wds set_wd set_next]. by rewrite lookup_insert_ne. }
  assert (∀ h gr, rs_grips s !! h = Some gr → h ≠ S i ∧ g_parent gr ≠ i) as Ho.
  { intros h gr Hh. split; [apply (ai_gn _ _ A) in Hh; fold i in Hh; lia|]. destruct (ai_gr _ _ A h gr Hh) as (y&Y&_). apply (ai_wn _ _ A) in Y. fold i in Y. lia. }
  intros q x. split; intros (h&gr&wd&H1&H2&H3&H4&H5); exists h, gr, wd.
  - assert (rs_grips s !! h = Some gr) as H1'.
    { destruct (decide (h = S i)) as [->|Hne]; [|by rewrite <-R2]. destruct (R3 gr H1) as [H|H]; [congruence|done]. }
    destruct (Ho h gr H1') as [Hne Hp]. rewrite Hw in H3 by done. by split_and!.
  - destruct (Ho h gr H1) as [Hne Hp]. rewrite R2, Hw by done. by split_and!.
Qed.
Theorem C48_no_panic_partial tr s : rdorderly tr s → rs_panic s = false.
Proof. intros Ho. apply (ri_panic _ _ (rdorderly_inv _ _ Ho)). Qed.

(** An orderly execution: Watch, an event, Rewatch while it is being served, refused Unwatch,
    the two handles report, the new set is in force; Unwatch of the directory, which has been
    deleted. *)
Definition dirA : str := b "C:\A".
Definition trA : list rlabel :=
  [LReq (QWatch dirA (Create readdcw .| Remove readdcw) true) true true true;
   LData 1 [FN FILE_ACTION_ADDED (b "x")]; LTake 1 [FN FILE_ACTION_ADDED (b "x")];
   LReq (QRewatch dirA (Create readdcw .| Remove readdcw) (Write readdcw) false) true true true;
   LReq (QUnwatch dirA) true true false;
   LRead 1 true; LState 1 true true; LTake 2 []; LRead 2 true].
Definition trB : list rlabel := [LState 2 true true; LReq (QUnwatch dirA) false true true; LTake 1 []; LRead 1 true; LState 1 true true].
Definition stA : rstate := rdfinal true trA.
Definition stB : rstate := rdfinal true (trA ++ trB).
Example C48_ex_orderly : rdorderly trA stA ∧ rdorderly (trA ++ trB) stB.
Proof. split; apply rdfinal_orderly; by vm_compute. Qed.
Example C48_ex_rewatching : is_Some (want trA dirA) ∧ in_progress stA dirA ∧ current stA dirA 2 ∧ rs_pc stA = PState 2 ∧ rs_reads stA = [] ∧ rs_queue stA = [] ∧
  rs_sent stA = [RdEvent dirA (b "x") fTypeFile (Create readdcw)].
Proof.
  split_and!; [by vm_compute; eauto|eexists _, _; split_and!; by vm_compute|eexists; split; by vm_compute|by vm_compute..].
Qed.
Example C48_ex_settled : let s := rdfinal true (trA ++ take 1 trB) in
  rs_reads s = [Read 1 (rd_encode (Write readdcw)) false] ∧ want (trA ++ take 1 trB) dirA = Some (Write readdcw, false) ∧ nonState s dirA ≠ None.
Proof. split_and!; by vm_compute. Qed.
Example C48_ex_gone : want (trA ++ trB) dirA = None ∧ rs_tab stB !! dirA = None ∧ rs_panic stB = false.
Proof. split_and!; by vm_compute. Qed.

(** The second handle is refused: both are needed for Create. *)
Example C48_ex_fails : let tr := [LReq (QWatch (b "C:\B") (Write readdcw) false) true true true] in let s := rdfinal false tr in
  rdexec tr s ∧ rs_tab s !! dirA = None ∧
  Create readdcw .& (FileNotifyChangeDirName .| Create readdcw .| Remove readdcw) ≠ 0 ∧
  rdstep s (LReq (QWatch dirA (Create readdcw) false) true false false) (rd_request s (QWatch dirA (Create readdcw) false) true false).1.
Proof. intros tr s. split_and!; [apply (rdfinal_exec false); by vm_compute|by vm_compute|done|]. constructor. by vm_compute. Qed.

(** What orderly executions leave out, and what else is not as stated: *)
Ltac run := eexists; split; [apply (rdfinal_exec false); by vm_compute|].
(** A Rewatch between the loop's reading again and its looking at the state takes effect while
    the completion of that read is outstanding; the loop then reads a second time from the
    same handle, into the same buffer. *)
Theorem C48_race_refuted :
  let tr1 := [LReq (QWatch dirA (Write readdcw) false) true true true; LData 1 [FN FILE_ACTION_MODIFIED (b "x")]; LTake 1 [FN FILE_ACTION_MODIFIED (b "x")]; LRead 1 true;
             LReq (QRewatch dirA (Write readdcw) (Write readdcw .| Rename readdcw) false) true true true] in
  let tr2 := tr1 ++ [LState 1 true true] in
  let tr3 := tr2 ++ [LTake 1 []; LRead 1 true] in
  (∃ s, rdexec tr1 s ∧ in_progress s dirA ∧ outstanding s dirA) ∧
  (∃ s, rdexec tr2 s ∧ ¬ in_progress s dirA ∧ outstanding s dirA) ∧
  (∃ s, rdexec tr3 s ∧ length (filter (λ r, r_grip r = 1%nat) (rs_reads s)) = 2%nat).
Proof.
  intros tr1 tr2 tr3. split_and!.
  - run. split; [eexists _, _; split_and!; by vm_compute|]. exists 1%nat. split; [eexists; split; by vm_compute|]. right; left. by vm_compute; left.
  - run. split; [intros (i&x&Ht&Hx&Hf); vm_compute in Ht; injection Ht as <-; vm_compute in Hx; injection Hx as <-; by vm_compute in Hf|].
    exists 1%nat. split; [eexists; split; by vm_compute|]. right; left. by vm_compute; left.
  - run. by vm_compute.
Qed.
(** A Watch is not refused while an Unwatch is in progress: it calls the Unwatch off and keeps
    the old set, though it reports success for the new one.  The next Rewatch, which names
    the set that was asked for, panics. *)
Theorem C48_watch_refuted :
  let tr1 := [LReq (QWatch dirA (Create readdcw) false) true true true; LReq (QUnwatch dirA) true true true; LReq (QWatch dirA (Write readdcw) true) true true true] in
  let tr2 := tr1 ++ [LReq (QRewatch dirA (Write readdcw) (Create readdcw .| Write readdcw) true) true true false] in
  want tr1 dirA = Some (Write readdcw, true) ∧
  (∃ s, rdexec tr1 s ∧ ¬ in_progress s dirA ∧ rs_reads s = [Read 2 FileNotifyChangeDirName false; Read 1 FileNotifyChangeFileName false]) ∧
  (∃ s, rdexec tr2 s ∧ rs_panic s = true).
Proof.
  intros tr1 tr2. split_and!; [by vm_compute|..]; run; [split; [|by vm_compute]|by vm_compute].
  intros (i&x&Ht&Hx&Hf); vm_compute in Ht; injection Ht as <-; vm_compute in Hx; injection Hx as <-; by vm_compute in Hf.
Qed.
(** An Unwatch of a directory that exists waits for the OS to report changes: until then
    nothing happens, and what is then reported is sent although Unwatch has returned. *)
Theorem C48_unwatch_refuted :
  let tr1 := [LReq (QWatch dirA (Write readdcw) false) true true true; LReq (QUnwatch dirA) true true true] in
  let tr2 := tr1 ++ [LData 1 [FN FILE_ACTION_MODIFIED (b "x")]; LTake 1 [FN FILE_ACTION_MODIFIED (b "x")]] in
  want tr1 dirA = None ∧
  (∃ s, rdexec tr1 s ∧ in_progress s dirA ∧ ¬ completion s dirA ∧ rs_sent s = []) ∧
  (∃ s, rdexec tr2 s ∧ rs_sent s = [RdEvent dirA (b "x") fTypeUnknown (Write readdcw)]).
Proof.
  intros tr1 tr2. split_and!; [by vm_compute|..]; run; [split_and!|by vm_compute].
  - eexists _, _; split_and!; by vm_compute.
  - intros (g&_&H). vm_compute in H. destruct H as [H|[H|H]]; [by apply elem_of_nil in H|done|done].
  - by vm_compute.
Qed.
(** With two handles it may take effect after two reports of the same one. *)
Theorem C48_unwatch_last_refuted :
  let x := [FN FILE_ACTION_ADDED (b "x")] in
  let tr := [LReq (QWatch dirA (Create readdcw) false) true true true; LReq (QUnwatch dirA) true true true;
             LData 1 x; LTake 1 x; LRead 1 true; LState 1 true true; LData 1 x; LTake 1 x; LRead 1 true; LState 1 true true] in
  (∃ s, rdorderly tr s ∧ rs_tab s !! dirA = None ∧ rs_tab (rdfinal true (take 9 tr)) !! dirA ≠ None).
Proof.
  intros x tr. eexists. split; [apply rdfinal_orderly; by vm_compute|]. split; by vm_compute.
Qed.
(** A Rewatch that leaves only the names of directories asks the OS for a handle with an
    empty filter besides, which the set does not need. *)
Theorem C48_dirname_refuted :
  let tr := [LReq (QWatch dirA (Create readdcw) false) true true true; LReq (QRewatch dirA (Create readdcw) FileNotifyChangeDirName false) true true true;
             LTake 1 []; LRead 1 true; LState 1 true true; LTake 2 []; LRead 2 true; LState 2 true true] in
  (∃ s, rdexec tr s ∧ ¬ in_progress s dirA ∧ open_handle s dirA (0, false)) ∧
  ∀ l, handles FileNotifyChangeDirName false l → (0, false) ∉ l.
Proof.
  intros tr. split.
  - run. split; [intros (i&x&Ht&Hx&Hf); vm_compute in Ht; injection Ht as <-; vm_compute in Hx; injection Hx as <-; by vm_compute in Hf|].
    exists 1%nat. eexists _, _. split_and!; by vm_compute.
  - intros l (file&dir&->&Hf&Hd). rewrite decide_True in Hf by (by vm_compute). rewrite decide_False in Hd by (by vm_compute). subst. cbn. rewrite elem_of_list_singleton. done.
Qed.
(** If that handle, or any other, cannot be opened the directory is never watched again: the
    operation stays in progress, nothing is outstanding, and every Rewatch and Unwatch is
    refused. *)
Theorem C48_stuck_refuted :
  let tr := [LReq (QWatch dirA (Create readdcw) false) true true true; LReq (QRewatch dirA (Create readdcw) (Write readdcw) false) true true true;
             LTake 1 []; LRead 1 true; LState 1 true true; LTake 2 []; LRead 2 true; LState 2 false true] in
  ∃ s, rdexec tr s ∧ in_progress s dirA ∧
    (∀ l s', rdstep s l s' → s' = s ∨ ∃ q ok0 ok1 r, l = LReq q ok0 ok1 r ∧ (req_path q ≠ dirA ∨ ∃ e k, q = QWatch dirA e k)).
Proof.
  intros tr. run. set (s := rdfinal false tr).
  assert (in_progress s dirA) as Hp by (eexists _, _; split_and!; by vm_compute).
  split; [done|]. intros l s' Hs.
  destruct Hs as [q ok0 ok1 s' r Hq|g l l1 x l2 Hr Hg|g l l1 l2 gr wd Hpc Hq Hg Hw|g ok Hpc|g ok0 ok1 Hpc].
  - destruct (decide (req_path q = dirA)) as [E|E]; [|right; exists q, ok0, ok1, r; auto]. destruct q as [p e k|p old new k|p]; cbn [req_path] in E; subst p.
    + right. eexists _, _, _, _. split; [done|]. right. eauto.
    + rewrite (request_busy s _ ok0 ok1 dirA Hp) in Hq by (right; eauto). left. symmetry. exact (proj1 (proj1 (pair_equal_spec _ _ _ _) Hq)).
    + rewrite (request_busy s _ ok0 ok1 dirA Hp) in Hq by (by left). left. symmetry. exact (proj1 (proj1 (pair_equal_spec _ _ _ _) Hq)).
  - exfalso. clear -Hr. vm_compute in Hr. by destruct l1.
  - exfalso. clear -Hq. vm_compute in Hq. by destruct l1.
  - exfalso. clear -Hpc. by vm_compute in Hpc.
  - exfalso. clear -Hpc. by vm_compute in Hpc.
Qed.

Print Assumptions C46_requested.
Print Assumptions C46_any.
Print Assumptions C46_issued.
Print Assumptions C47_delivered.
Print Assumptions C47_native_partial.
Print Assumptions C48_refused.
Print Assumptions C48_rewatch_effect_partial.
Print Assumptions C48_rewatch_progress_partial.
Print Assumptions C48_unwatch_effect_partial.
Print Assumptions C48_settled_partial.
Print Assumptions C48_watch_fails.
Print Assumptions C48_no_panic_partial.
Print Assumptions C48_race_refuted.
Print Assumptions C48_stuck_refuted.
