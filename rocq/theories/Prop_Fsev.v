(** * The FSEvents watcher: C42, C43, C44, C45 *)
From Verif Require Import Base Event Paths PathsFacts Node SpecOS Fsev SpecFsev FsevFacts.
From Coq Require Import Sorting.
Local Open Scope N_scope.

(** ** C42: a set is delivered as its flags, each once, in increasing order *)
Theorem C42_split set : u32 set →
  (∀ e, e ∈ splitflags set ↔ ∃ j, has set j ∧ e = 2 ^ j) ∧
  NoDup (splitflags set) ∧ StronglySorted N.lt (splitflags set) ∧ foldr N.lor 0 (splitflags set) = set.
Proof.
  intros Hu. destruct (splitflags_spec set Hu) as [H1 H2]. split_and!; [done|by apply sorted_nodup|done|].
  apply N.bits_inj. intros i. apply eq_true_iff_eq.
  assert (∀ l, N.testbit (foldr N.lor 0 l) i = true ↔ ∃ e, e ∈ l ∧ N.testbit e i = true) as Hl.
  { induction l as [|e l IH]; cbn [foldr].
    - split; [done|]. by intros (?&?%elem_of_nil&_).
    - rewrite N.lor_spec, orb_true_iff, IH. split.
      + intros [H|(f&Hf&H)]; [exists e; split; [by left|done]|exists f; split; [by right|done]].
      + intros (f&[-> |Hf]%elem_of_cons&H); [by left|right; eauto]. }
  rewrite Hl. split.
  - intros (e&He&Hi). apply H1 in He as (j&Hj&->). rewrite N.pow2_bits_eqb in Hi. apply N.eqb_eq in Hi as <-. exact Hj.
  - intros H. exists (2 ^ i). split; [apply H1; eauto|]. by rewrite N.pow2_bits_true.
Qed.
Example C42_ex : splitflags 0x80001901 = [0x1; 0x100; 0x800; 0x1000; 0x80000000].
Proof. by vm_compute. Qed.

(** ** C43: what a watch forwards *)
(** Nothing else: whatever is sent was reported by the OS after the history marker, for the
    watched path or a path below it (directly below if the watch is not recursive), and is one
    flag of that report that is requested. *)
Theorem C43_nothing_else p e k ops o : comps_ok fslash p → Forall wf_item (history e k ops) →
  o ∈ (fs_hist (fresh_watch (render fslash p) e k) ops).2 →
  ∃ i q j, i ∈ live (history e k ops) ∧ o = (it_ev i, 2 ^ j) ∧
    fe_path (it_ev i) = render fslash q ∧ p `prefix_of` q ∧
    (it_isrec i = true ∨ (length q ≤ S (length p))%nat) ∧
    has (fe_flags (it_ev i)) j ∧ has (it_events i) j.
Proof.
  intros Hp Hl. rewrite fs_hist_run. cbn [fresh_watch fw_events fw_isrec]. intros H.
  apply (fs_run_sound p) in H as (i&Hi&H1&(q&Hq&Hc)&(j&Hj1&Hj2&H2)); [|done..].
  exists i, q, j. destruct Hc as (C1&C2&C3&_). destruct o as [ev f]. simpl in *. subst. done.
Qed.
(** Exactly: what is sent about one file depends on the reports about that file alone. *)
Theorem C43_exact p q e k ops : comps_ok fslash p → clean q → Forall wf_item (history e k ops) →
  about q (fs_hist (fresh_watch (render fslash p) e k) ops).2 =
  let s := seen p q (history e k ops) in concat (zip_with sent s (effects 0 ((λ i, fe_flags (it_ev i)) <$> s))).
Proof.
  intros Hp Hq Hl. rewrite fs_hist_run. cbn [fresh_watch fw_events fw_isrec]. cbn zeta.
  destruct (decide (p `prefix_of` q)) as [Hpq|Hpq].
  - apply fs_run_exact; try done. eapply Forall_impl; [exact Hl|]. by intros i [? _].
  - assert (seen p q (history e k ops) = []) as ->.
    { unfold seen. generalize (live (history e k ops)). intros l. induction l as [|i l IH]; [done|].
      rewrite filter_cons_False; [done|]. intros (_&H&_). done. }
    cbn. apply elem_of_nil_inv. intros o [H1 H2]%elem_of_list_filter.
    apply (fs_run_sound p) in H2 as (i&_&Ho&(q'&Hq'&Hc)&_); [|done..].
    rewrite Ho in H1. destruct Hc as (C1&C2&_). rewrite H1 in C1. apply (render_inj fslash) in C1; [|apply Hq|apply Hq'].
    by subst.
Qed.
(** Nothing is lost: a requested flag other than the four that [strip] works on is sent. *)
Theorem C43_other_flags_sent p q e k ops i j : comps_ok fslash p → clean q → Forall wf_item (history e k ops) →
  i ∈ live (history e k ops) → concerns p q i → has (fe_flags (it_ev i)) j → has (it_events i) j →
  ¬ has (FSEventsCreated .| FSEventsRemoved .| FSEventsModified .| FSEventsInodeMetaMod) j →
  (it_ev i, 2 ^ j) ∈ (fs_hist (fresh_watch (render fslash p) e k) ops).2.
Proof.
  intros Hp Hq Hl Hi Hc H1 H2 H3.
  assert ((it_ev i, 2 ^ j) ∈ about q (fs_hist (fresh_watch (render fslash p) e k) ops).2) as H.
  { rewrite C43_exact by done. apply sent_kept; [by apply seen_wf| |done..]. apply elem_of_list_filter. done. }
  by apply elem_of_list_filter in H as [_ H].
Qed.
Definition fev (s : string) (f : N) : fsevent := FSEvent (bytes_of s) 1 f.
Definition demo : list hop :=
  [HBatch [fev "/a/b" 0x100; fev "/a" 0x10; fev "/a/b" 0x1100; fev "/ab" 0x100; fev "/a/c/d" 0x800];
   HSet 0x900 true; HBatch [fev "/a/c/d" 0x800; fev "/a/b" 0x1300; fev "/a" 0x800]].
Fixpoint split_on (l : str) : list str :=
  match l with
  | [] => [[]]
  | c :: l => if Ascii.eqb c fslash then [] :: split_on l
              else match split_on l with [] => [[c]] | d :: ds => (c :: d) :: ds end
  end.
Definition wf_itemb (i : item) : bool :=
  let q := tail (split_on (fe_path (it_ev i))) in
  bool_decide (fe_path (it_ev i) = render fslash q) && forallb (λ c, bool_decide (fslash ∉ c) && negb (bool_decide (c = []))) q &&
  (fe_flags (it_ev i) <? 4294967296).
Lemma wf_itemb_ok i : wf_itemb i = true → wf_item i.
Proof.
  unfold wf_itemb. intros [[H1 H2]%andb_true_iff H3]%andb_true_iff. apply bool_decide_eq_true in H1. apply N.ltb_lt in H3.
  split; [|done]. eexists. split; [|exact H1]. rewrite forallb_forall in H2. split.
  - apply Forall_forall. intros c Hc%elem_of_list_In%H2. apply andb_true_iff in Hc as [Hc _]. by apply bool_decide_eq_true in Hc.
  - intros Hc%elem_of_list_In%H2. done.
Qed.
Lemma wf_itemsb l : forallb wf_itemb l = true → Forall wf_item l.
Proof. intros H. apply Forall_forall. intros i Hi%elem_of_list_In. rewrite forallb_forall in H. by apply wf_itemb_ok, H. Qed.
Example C43_ex :
  Forall wf_item (history 0x1100 false demo) ∧ comps_ok fslash [bytes_of "a"] ∧
  (fs_hist (fresh_watch (bytes_of "/a") 0x1100 false) demo).2 =
    [(fev "/a/b" 0x1100, 0x100); (fev "/a/b" 0x1100, 0x1000); (fev "/a/c/d" 0x800, 0x800); (fev "/a" 0x800, 0x800)].
Proof.
  split; [|split].
  - apply wf_itemsb. by vm_compute.
  - apply (bool_decide_unpack _). by vm_compute.
  - by vm_compute.
Qed.
(** A watch of the root directory forwards nothing at all from below it: the byte after the
    prefix "/" is not a separator. *)
Theorem C43_root_refuted e k ops : Forall wf_item (history e k ops) →
  (fs_hist (fresh_watch (bytes_of "/") e k) ops).2 = [].
Proof.
  intros Hl. apply elem_of_nil_inv. intros o. rewrite fs_hist_run. cbn [fresh_watch fw_events fw_isrec].
  change (bytes_of "/") with (render fslash [[]]). intros H.
  apply (fs_run_sound [[]]) in H as (i&_&_&(q&[_ Hq]&(_&[r ->]&_))&_).
  - apply Hq. by left.
  - repeat constructor. intros H'. by apply elem_of_nil in H'.
  - done.
  - done.
Qed.
Example C43_root_ex : Forall wf_item (history 0x100 true [HBatch [fev "/a" 0x10; fev "/a" 0x100]]) ∧
  (fs_hist (fresh_watch (bytes_of "/") 0x100 true) [HBatch [fev "/a" 0x10; fev "/a" 0x100]]).2 = [] ∧
  [] `prefix_of` [bytes_of "a"].
Proof. split; [apply wf_itemsb; by vm_compute|]. split; [by vm_compute|]. by eexists. Qed.

(** ** C44: Create and Remove of a file alternate *)
(** Partial: for a file whose first report with one of the two flags has only one of them
    (always so if the file is not created and removed within one report).  Both are requested
    throughout. *)
Theorem C44_alternation_partial p q e k ops : comps_ok fslash p → clean q → Forall wf_item (history e k ops) →
  clear_start ((λ i, fe_flags (it_ev i)) <$> seen p q (history e k ops)) →
  Forall (λ i, incl_ev fs_both (it_events i)) (seen p q (history e k ops)) →
  alternating (filter (λ f, f = FSEventsCreated ∨ f = FSEventsRemoved)
                 (snd <$> about q (fs_hist (fresh_watch (render fslash p) e k) ops).2)).
Proof.
  intros Hp Hq Hl Hc Hb. rewrite C43_exact by done. cbn zeta.
  assert (Forall u32 ((λ i, fe_flags (it_ev i)) <$> seen p q (history e k ops))) as Hu.
  { apply Forall_fmap. eapply Forall_impl; [by apply seen_wf|]. by intros i [_ ?]. }
  rewrite reported_flags; [|by rewrite effects_length, fmap_length|by apply effects_u32|done].
  by apply effects_start.
Qed.
(** Under the same condition no single report is passed on as Removed together with a write. *)
Theorem C44_no_write_with_remove_partial p q e k ops : comps_ok fslash p → clean q → Forall wf_item (history e k ops) →
  clear_start ((λ i, fe_flags (it_ev i)) <$> seen p q (history e k ops)) →
  ∃ sets, about q (fs_hist (fresh_watch (render fslash p) e k) ops).2 = concat (zip_with sent (seen p q (history e k ops)) sets) ∧
    length sets = length (seen p q (history e k ops)) ∧
    ∀ i eff, eff ∈ sets → (it_ev i, FSEventsRemoved) ∈ sent i eff →
      (it_ev i, FSEventsModified) ∉ sent i eff ∧ (it_ev i, FSEventsInodeMetaMod) ∉ sent i eff.
Proof.
  intros Hp Hq Hl Hc.
  assert (Forall u32 ((λ i, fe_flags (it_ev i)) <$> seen p q (history e k ops))) as Hu.
  { apply Forall_fmap. eapply Forall_impl; [by apply seen_wf|]. by intros i [_ ?]. }
  eexists. split; [by apply C43_exact|]. split; [by rewrite effects_length, fmap_length|].
  intros i eff He HR. destruct (effects_start _ Hu Hc) as [_ HW].
  pose proof (effects_u32 _ 0 Hu) as Hue. rewrite Forall_forall in Hue. specialize (Hue _ He).
  assert (u32 (eff .& it_events i)) as Hu' by (apply (incl_u32 _ eff); [intros j Hj; by apply has_land in Hj as [? _]|done]).
  assert (∀ f n, f = 2 ^ n → (it_ev i, f) ∈ sent i eff → eff .& f ≠ 0) as Hs.
  { intros f n Hf (g&[= <-]&Hg)%elem_of_list_fmap. apply splitflags_in in Hg as (j&Hj&->); [|done].
    apply has_pow2. by apply has_land in Hj as [? _]. }
  apply (Hs _ 9 eq_refl) in HR. specialize (HW _ He HR).
  assert (∀ f, incl_ev f fs_write → eff .& f = 0) as Hz.
  { intros f Hf. apply N.bits_inj_0. intros j. rewrite N.land_spec. destruct (N.testbit f j) eqn:Ej; [|apply andb_false_r].
    destruct (N.testbit eff j) eqn:Ee; [|done]. assert (has (eff .& fs_write) j) as X by (apply has_land; split; [done|by apply Hf]).
    rewrite HW in X. by apply has_0 in X. }
  split.
  - intros H%(Hs _ 12 eq_refl). apply H, Hz. unfold fs_write. bits.
  - intros H%(Hs _ 10 eq_refl). apply H, Hz. unfold fs_write. bits.
Qed.
Definition life : list hop :=
  [HBatch [fev "/a" 0x10; fev "/a/f" 0x1100]; HBatch [fev "/a/f" 0x1300]; HBatch [fev "/a/f" 0x1300; fev "/a/f" 0x1300]].
Example C44_ex :
  let S := seen [bytes_of "a"] [bytes_of "a"; bytes_of "f"] (history 0x1300 false life) in
  Forall wf_item (history 0x1300 false life) ∧ length S = 4%nat ∧
  clear_start ((λ i, fe_flags (it_ev i)) <$> S) ∧ Forall (λ i, incl_ev fs_both (it_events i)) S ∧
  snd <$> (fs_hist (fresh_watch (bytes_of "/a") 0x1300 false) life).2 = [0x100; 0x1000; 0x200; 0x100; 0x1000; 0x200].
Proof.
  cbn zeta. split; [apply wf_itemsb; by vm_compute|].
  assert ((λ i, (fe_flags (it_ev i), it_events i)) <$> seen [bytes_of "a"] [bytes_of "a"; bytes_of "f"] (history 0x1300 false life) =
    [(0x1100, 0x1300); (0x1300, 0x1300); (0x1300, 0x1300); (0x1300, 0x1300)]) as HS by (by vm_compute).
  split_and!.
  - rewrite <-(fmap_length (λ i, (fe_flags (it_ev i), it_events i))), HS. done.
  - apply (f_equal (fmap fst)) in HS. rewrite <-list_fmap_compose in HS. change (fst ∘ _) with (λ i, fe_flags (it_ev i)) in HS.
    rewrite HS. intros [|x l1] f l2 E Hl1; simpl in E; injection E as <- E; [by vm_compute|].
    apply Forall_cons in Hl1 as [Hx _]. by vm_compute in Hx.
  - apply Forall_forall. intros i Hi. apply (elem_of_list_fmap_1 (λ i, (fe_flags (it_ev i), it_events i))) in Hi.
    rewrite HS in Hi. assert (it_events i = 0x1300) as ->.
    { repeat (apply elem_of_cons in Hi as [[= _ ?]|Hi]; [done|]). by apply elem_of_nil in Hi. }
    by apply land_eq_incl.
  - by vm_compute.
Qed.
(** In general it fails.  A file created and removed within the first report is reported as
    both, with the write, and its next Removed is reported again although it was not created
    in between. *)
Definition twice : list hop := [HBatch [fev "/a" 0x10; fev "/a/f" 0x1300; fev "/a/f" 0x200]].
Theorem C44_refuted :
  Forall wf_item (history 0x1300 false twice) ∧
  Forall (λ i, incl_ev fs_both (it_events i)) (history 0x1300 false twice) ∧
  (fs_hist (fresh_watch (bytes_of "/a") 0x1300 false) twice).2 =
    [(fev "/a/f" 0x1300, FSEventsCreated); (fev "/a/f" 0x1300, FSEventsRemoved); (fev "/a/f" 0x1300, FSEventsModified);
     (fev "/a/f" 0x200, FSEventsRemoved)] ∧
  ¬ alternating [FSEventsCreated; FSEventsRemoved; FSEventsRemoved].
Proof.
  split; [apply wf_itemsb; by vm_compute|]. split; [|split; [by vm_compute|]].
  - repeat constructor; by apply land_eq_incl.
  - inversion 1 as [| |? ? ? _ H2]; subst. inversion H2 as [| |? ? ? H3 _]; subst. done.
Qed.

(** ** C45: the calls of the watcher *)
(** A call that respects its documented preconditions and succeeds has the documented effect. *)
Theorem C45_success P start m c m' : legal P (fs_os m) c → fs_call start m c = (m', None) →
  fs_os m' = os_step (fs_os m) (c, true).
Proof. apply fs_call_ok. Qed.
(** If streams can be started, such a call succeeds. *)
Theorem C45_accepts P start m c : legal P (fs_os m) c → (∀ p, start p = true) → (fs_call start m c).2 = None.
Proof.
  intros Hl Hs. destruct c as [p e|p|p old new|p e|p|p q old new]; cbn [legal fs_call] in *; rewrite ?fs_os_lookup in Hl.
  - unfold fs_watch. destruct (m !! p); [by destruct Hl|]. by rewrite Hs.
  - unfold fs_unwatch. destruct (m !! p); [done|by destruct Hl].
  - unfold fs_rewatch. destruct (m !! p) as [x|]; [|by destruct Hl]. destruct Hl as [[= <-] _]. by rewrite N.eqb_refl.
  - unfold fs_watch. destruct (m !! p); [by destruct Hl|]. by rewrite Hs.
  - unfold fs_unwatch. destruct (m !! p); [done|by destruct Hl].
  - destruct Hl as (H1&_&H2). unfold fs_recrewatch. destruct (bool_decide_reflect (p = q)) as [->|Hne].
    + destruct (m !! q) as [x|]; [|done]. injection H1 as <-. destruct (_ =? _); [done|]. by rewrite N.eqb_refl.
    + specialize (H2 Hne). rewrite ?fs_os_lookup in H2. destruct (m !! q) eqn:Hq; [done|]. unfold fs_unwatch.
      destruct (m !! p); [|done]. unfold fs_watch. rewrite lookup_delete_ne, Hq by done. by rewrite Hs.
Qed.
(** A call that fails changes nothing, but for a relocation whose new stream does not start. *)
Theorem C45_error_unchanged_partial start m c m' err : fs_call start m c = (m', Some err) →
  m' = m ∨ ∃ p q old new, c = WRecRewatch p q old new ∧ p ≠ q ∧ start q = false ∧ err = ErrStart ∧ m' = delete p m.
Proof.
  destruct c as [p e|p|p old new|p e|p|p q old new]; cbn [fs_call].
  - unfold fs_watch. destruct (m !! p); [intros [= <- _]; by left|]. destruct (start p); [done|intros [= <- _]; by left].
  - unfold fs_unwatch. destruct (m !! p); [done|intros [= <- _]; by left].
  - unfold fs_rewatch. destruct (m !! p); [|intros [= <- _]; by left]. destruct (_ =? _); [done|intros [= <- _]; by left].
  - unfold fs_watch. destruct (m !! p); [intros [= <- _]; by left|]. destruct (start p); [done|intros [= <- _]; by left].
  - unfold fs_unwatch. destruct (m !! p); [done|intros [= <- _]; by left].
  - unfold fs_recrewatch. destruct (bool_decide_reflect (p = q)) as [->|Hne].
    + destruct (m !! q); [|intros [= <- _]; by left]. destruct (_ =? _); [done|]. destruct (_ =? _); [done|intros [= <- _]; by left].
    + destruct (m !! q) eqn:Hq; [intros [= <- _]; by left|]. unfold fs_unwatch. destruct (m !! p); [|intros [= <- _]; by left].
      unfold fs_watch. rewrite lookup_delete_ne, Hq by done. destruct (start q) eqn:Hs; [done|]. intros [= <- <-]. right.
      by exists p, q, old, new.
Qed.
(** The documented errors are detected. *)
Theorem C45_errors start m p : 
  (∀ e, is_Some (fs_os m !! p) → fs_call start m (WWatch p e) = (m, Some ErrAlreadyWatched) ∧
                                 fs_call start m (WRecWatch p e) = (m, Some ErrAlreadyWatched)) ∧
  (fs_os m !! p = None → fs_call start m (WUnwatch p) = (m, Some ErrNotWatched) ∧
     fs_call start m (WRecUnwatch p) = (m, Some ErrNotWatched) ∧
     ∀ old new, fs_call start m (WRewatch p old new) = (m, Some ErrNotWatched) ∧
       ∀ q, fs_os m !! q = None → fs_call start m (WRecRewatch p q old new) = (m, Some ErrNotWatched)) ∧
  (∀ d k old new, fs_os m !! p = Some (d, k) → d ≠ old →
     fs_call start m (WRewatch p old new) = (m, Some ErrInvalidEventSet) ∧
     (old ≠ new → fs_call start m (WRecRewatch p p old new) = (m, Some ErrInvalidEventSet))) ∧
  (∀ q old new, p ≠ q → is_Some (fs_os m !! q) → fs_call start m (WRecRewatch p q old new) = (m, Some ErrAlreadyWatched)).
Proof.
  split_and!.
  - intros e. rewrite fs_os_lookup. intros [x Hx]. simpl. unfold fs_watch. destruct (m !! p); done.
  - rewrite fs_os_lookup. intros Hp%fmap_None. simpl. unfold fs_unwatch, fs_rewatch, fs_recrewatch, fs_unwatch. rewrite Hp.
    split_and!; [done..|]. intros old new. split; [done|]. intros q. rewrite fs_os_lookup. intros Hq%fmap_None. rewrite Hq.
    by destruct (bool_decide _).
  - intros d k old new. rewrite fs_os_lookup. destruct (m !! p) as [x|] eqn:Hp; [|done]. intros [= <- <-] Hne. simpl.
    unfold fs_rewatch, fs_recrewatch. rewrite Hp, bool_decide_true by done. apply N.eqb_neq in Hne. rewrite Hne.
    split; [done|]. intros Hon%N.eqb_neq. by rewrite Hon.
  - intros q old new Hne. rewrite fs_os_lookup. intros [x Hx]. simpl. unfold fs_recrewatch. rewrite bool_decide_false by done.
    destruct (m !! q); done.
Qed.
Definition tab1 : fstab := {[ bytes_of "/a" := FWatch ∅ (bytes_of "/a") 0x100 false true ]}.
Example C45_ex :
  let c := WRecRewatch (bytes_of "/a") (bytes_of "/b") 0x100 0x300 in
  legal fsevents (fs_os tab1) c ∧ (fs_call (λ _, true) tab1 c).2 = None ∧
  fs_os (fs_call (λ _, true) tab1 c).1 = {[ bytes_of "/b" := (0x300, true) ]}.
Proof.
  cbn zeta. split; [|split; [by vm_compute|apply (bool_decide_unpack _); by vm_compute]].
  cbn [legal]. split; [by vm_compute|]. split; [split; [done|]|intros _; by vm_compute].
  by apply land_zero_disj.
Qed.
(** The rest of the contract fails.  First, a relocation whose new stream does not start
    returns an error after it has dropped the old watch: *)
Theorem C45_relocation_refuted start m p q old new : legal fsevents (fs_os m) (WRecRewatch p q old new) → p ≠ q → start q = false →
  fs_call start m (WRecRewatch p q old new) = (delete p m, Some ErrStart) ∧ is_Some (fs_os m !! p).
Proof.
  cbn [legal fs_call]. intros (H1&_&H2) Hne Hs. rewrite fs_os_lookup in *. specialize (H2 Hne). rewrite ?fs_os_lookup in H2.
  destruct (m !! p) eqn:Hp; [|done]. destruct (m !! q) eqn:Hq; [done|]. split; [|done].
  unfold fs_recrewatch. rewrite bool_decide_false, Hq by done. unfold fs_unwatch. rewrite Hp. unfold fs_watch.
  by rewrite lookup_delete_ne, Hq, Hs by done.
Qed.
(** Second, a call with a wrong old set is reported as done: on the same path with nothing
    changed, and on another path. *)
Theorem C45_stale_set_refuted :
  let a := bytes_of "/a" in let b := bytes_of "/b" in
  fs_os tab1 !! a = Some (0x100, false) ∧
  ¬ legal fsevents (fs_os tab1) (WRecRewatch a a 0x800 0x800) ∧
  (fs_call (λ _, true) tab1 (WRecRewatch a a 0x800 0x800)).2 = None ∧
  fs_os (fs_call (λ _, true) tab1 (WRecRewatch a a 0x800 0x800)).1 !! a = Some (0x100, true) ∧
  ¬ legal fsevents (fs_os tab1) (WRecRewatch a b 0x800 0x900) ∧
  (fs_call (λ _, true) tab1 (WRecRewatch a b 0x800 0x900)).2 = None.
Proof.
  cbn zeta. split_and!; try (by vm_compute); intros [H _]; by vm_compute in H.
Qed.

Print Assumptions C42_split.
Print Assumptions C43_exact.
Print Assumptions C43_nothing_else.
Print Assumptions C44_alternation_partial.
Print Assumptions C44_no_write_with_remove_partial.
Print Assumptions C45_errors.
Print Assumptions C45_success.
