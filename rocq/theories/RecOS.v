(** * RecOS: the invariant tying the recursive tree to the OS watches, and how each
    kind of operation preserves it *)
From Verif Require Import Base Event Watchpoint WatchpointFacts Paths PathsFacts Loop LoopFacts
  Node NodeFacts SpecTree WalkFacts RootFacts NonRec NonRecWp Rec SpecNonRec SpecOS SpecRec RecFacts RecReg RecStop RecDisp RecStep RecTidy RecCopy.
Local Open Scope N_scope.

Section os.
Context (P : platform) (HP : platform_ok P) (sepc : ascii) (w : bool) (isvol : str → Prop) (strict : bool).
Notation nameof := (nameof sepc w).
Notation renv := (renv P sepc w isvol).
Notation rpath := (rpath sepc w isvol).
Notation rinv := (rinv P sepc w isvol).
Notation wpt := (wpt P).
Notation wt := (wt P).
Notation good := (good P).
Notation watched m q := (is_Some (m !! nameof q)).

Lemma name_inj E p q : renv E → rpath p → rpath q → nameof p = nameof q → p = q.
Proof.
  intros HE Hp Hq He. pose proof (re_vol _ _ _ _ _ HE p Hp) as V1. pose proof (re_vol _ _ _ _ _ HE q Hq) as V2.
  rewrite He, V2 in V1. clear V2. destruct Hp as [_ Hp], Hq as [_ Hq]. unfold SpecTree.nameof in *. destruct w.
  - destruct Hp as (v&cs&->&_&_&H1), Hq as (v'&cs'&->&_&_&H2). simpl in V1. subst v'. f_equal.
    apply app_inv_head in He. by apply (render_inj sepc).
  - destruct Hp as [_ H1], Hq as [_ H2]. by apply (render_inj sepc).
Qed.
Lemma above_prefix p q r : above p q → q `prefix_of` r → above p r.
Proof.
  intros [H1 H2] H3. split; [by etrans|]. intros ->. apply H2. by apply (anti_symm prefix).
Qed.
Lemma prefix_above p q r : p `prefix_of` q → above q r → above p r.
Proof.
  intros H1 [H2 H3]. split; [by etrans|]. intros ->. apply H3. by apply (anti_symm prefix).
Qed.

(** With [strict] the OS watch must also be recursive where that is needed. *)
Definition wrec (t : tree) (h : path) : Prop := strict = true ∧ RecTidy.wrec P t h.
Record tidy (t : tree) (m : ostab) : Prop := {
  td_inv : rinv t;
  td_wp : ∀ q, wpt (wp_at t q);
  (** What the OS watches. *)
  td_os : ∀ x v, m !! x = Some v → ∃ h, rpath h ∧ x = nameof h ∧ is_Some (t !! h) ∧
    v.1 = wt t h ∧ wt t h ≠ 0 ∧ (wrec t h → v.2 = true);
  td_anti : unrelated sepc w isvol m;
  (** Everything is at or below something watched. *)
  td_top : ∀ h, [] ∉ h → wt t h ≠ 0 → ∃ q, rpath q ∧ q `prefix_of` h ∧ watched m q;
  (** The inactive watchpoint holds only what is registered below, *)
  td_in : ∀ h k i, [] ∉ h → has (wget (wp_at t (inact h)) (KUser k)) i →
    ∃ q, above h q ∧ [] ∉ q ∧ has (wget (wp_at t q) (KUser k)) i;
  (** and at a watched node all of it. *)
  td_cov : ∀ h q k i, rpath h → watched m h → above h q → [] ∉ q →
    has (wget (wp_at t q) (KUser k)) i → has (wget (wp_at t (inact h)) (KUser k)) i;
}.
Lemma inact_ne h q : [] ∉ q → q ≠ inact h.
Proof. apply inact_not_plain. Qed.
Lemma wt_reg t h k i : wpt (wp_at t h) → has (wget (wp_at t h) (KUser k)) i → wt t h ≠ 0.
Proof. intros Hw Hi Hz. apply (wpt_reg P _ _ _ Hw Hi). unfold RecTidy.wt in Hz. clear - Hz. bits. Qed.
Lemma wt_zero t h : wpt (wp_at t h) → wpt (wp_at t (inact h)) → wt t h = 0 → wp_at t h = ∅ ∧ wp_at t (inact h) = ∅.
Proof.
  intros H1 H2 Hz. unfold RecTidy.wt in Hz.
  assert (wtotal P (wp_at t h) = 0) by (clear - Hz; bits). assert (wtotal P (wp_at t (inact h)) = 0) by (clear - Hz; bits).
  split; by apply (wtotal_zero P).
Qed.
Lemma wt_ext t t' h : wp_at t' h = wp_at t h → wp_at t' (inact h) = wp_at t (inact h) → wt t' h = wt t h ∧ (RecTidy.wrec P t' h ↔ RecTidy.wrec P t h).
Proof. intros H1 H2. unfold RecTidy.wt, RecTidy.wrec. by rewrite H1, H2. Qed.
Lemma wt_exts t t' h : wp_at t' h = wp_at t h → wp_at t' (inact h) = wp_at t (inact h) → wt t' h = wt t h ∧ (wrec t' h ↔ wrec t h).
Proof. intros H1 H2. unfold RecTidy.wt, wrec, RecTidy.wrec. by rewrite H1, H2. Qed.
Lemma wadd_ne n e wp : good e → (wadd P wp (KUser n) e).1 ≠ ∅.
Proof.
  intros _ K. pose proof (f_equal (lookup (KUser n)) K) as H. by rewrite wadd_get, bool_decide_true, lookup_empty in H.
Qed.
Lemma plain_prefix (p q : path) : p `prefix_of` q → [] ∉ q → [] ∉ p.
Proof. intros [r ->] H K. apply H. apply elem_of_app. by left. Qed.

Section trans.
Context (Hinj : ∀ p q, rpath p → rpath q → nameof p = nameof q → p = q).

Lemma td_at t m h v : tidy t m → rpath h → m !! nameof h = Some v →
  v.1 = wt t h ∧ wt t h ≠ 0 ∧ is_Some (t !! h) ∧ (wrec t h → v.2 = true).
Proof.
  intros Ht Hh Hv. destruct (td_os _ _ Ht _ _ Hv) as (h'&Hh'&Hn&?&?&?&?). apply Hinj in Hn as <-; done.
Qed.
Lemma td_uniq t m p q r : tidy t m → rpath p → rpath q → watched m p → watched m q → p `prefix_of` r → q `prefix_of` r → p = q.
Proof.
  intros Ht Hp Hq Wp Wq H1 H2. destruct (decide (p = q)) as [|Hne]; [done|]. exfalso.
  destruct (prefix_weak_total _ _ _ H1 H2) as [K|K].
  - destruct (td_anti _ _ Ht p q Hp Hq (conj K Hne)) as [X|X]; [rewrite X in Wp; by destruct Wp|rewrite X in Wq; by destruct Wq].
  - destruct (td_anti _ _ Ht q p Hq Hp (conj K (not_eq_sym Hne))) as [X|X]; [rewrite X in Wq; by destruct Wq|rewrite X in Wp; by destruct Wp].
Qed.
(** The topmost node with events is watched. *)
Lemma td_topmost t m h : tidy t m → [] ∉ h → wt t h ≠ 0 → (∀ q, above q h → (w = true → q ≠ []) → wt t q = 0) → rpath h ∧ watched m h.
Proof.
  intros Ht Hh Hne Hab. destruct (td_top _ _ Ht h Hh Hne) as (q&Hq&Hpre&Wq).
  destruct (decide (q = h)) as [->|Hqh]; [done|]. exfalso. destruct Wq as [v Hv].
  destruct (td_at _ _ _ _ Ht Hq Hv) as (_&Hnz&_). apply Hnz. apply Hab; [done|]. intros _. by apply (rpath_ne sepc w isvol).
Qed.

Section add.
Context (t t' : tree) (m m' : ostab) (p : path) (n : positive) (e : N).
Context (Ht : tidy t m) (Hp : rpath p) (Hi' : rinv t') (Hnodes : ∀ q, [] ∉ q → is_Some (t !! q) → is_Some (t' !! q)) (He : good e).
Notation A wp := (wadd P wp (KUser n) e).1.

Lemma A_get wp k i : has (wget (A wp) (KUser k)) i ↔ has (wget wp (KUser k)) i ∨ (k = n ∧ has e i).
Proof.
  rewrite rureg_wadd. destruct (decide (k = n)) as [->|Hne]; [rewrite has_lor; naive_solver|naive_solver].
Qed.
Lemma A_wpt wp : wpt wp → wpt (A wp).
Proof. intros H. destruct He as (?&?&?). by apply wpt_wadd. Qed.

(** Adding to a watched node. *)
Lemma tidy_self k' :
  watched m p → (∀ q, wp_at t' q = if decide (q = p) then A (wp_at t p) else wp_at t q) →
  m' !! nameof p = Some (wt t' p, k') → (wrec t' p → k' = true) → (∀ x, x ≠ nameof p → m' !! x = m !! x) →
  tidy t' m'.
Proof.
  intros Wp Hw Hm Hk Hm'. assert ([] ∉ p) as Hpp by apply Hp.
  assert (∀ q, watched m' q ↔ watched m q) as Hwm.
  { intros q. destruct (decide (nameof q = nameof p)) as [E|E].
    - rewrite E, Hm. split; [done|eauto].
    - by rewrite Hm'. }
  assert (∀ h, wp_at t' (inact h) = wp_at t (inact h)) as Hin.
  { intros h. rewrite Hw, decide_False; [done|]. intros K. symmetry in K. by apply inact_ne in K. }
  assert (∀ h, h ≠ p → wt t' h = wt t h ∧ (wrec t' h ↔ wrec t h)) as Hwt.
  { intros h Hne. apply wt_exts; [|done]. by rewrite Hw, decide_False. }
  assert (∀ q k i, has (wget (wp_at t q) (KUser k)) i → has (wget (wp_at t' q) (KUser k)) i) as Hmono.
  { intros q k i H. rewrite Hw. destruct (decide (q = p)) as [->|]; [|done]. apply A_get. by left. }
  split.
  - done.
  - intros q. rewrite Hw. destruct (decide (q = p)); [apply A_wpt|]; apply (td_wp _ _ Ht).
  - intros x v Hx. destruct (decide (x = nameof p)) as [->|Hxp].
    + rewrite Hm in Hx. injection Hx as <-. exists p. destruct Wp as [v0 Hv0].
      destruct (td_at _ _ _ _ Ht Hp Hv0) as (_&_&Hs&_). split_and!; try done; [by apply Hnodes|].
      cbn [fst]. intros Hz. apply wt_zero in Hz as [Hz _]; [|rewrite Hw, decide_True by done; apply A_wpt, (td_wp _ _ Ht)|rewrite Hin; apply (td_wp _ _ Ht)].
      rewrite Hw, decide_True in Hz by done. by eapply wadd_ne.
    + rewrite Hm' in Hx by done. destruct (td_os _ _ Ht _ _ Hx) as (h&Hh&->&Hs&H1&H2&H3).
      assert (h ≠ p) as Hne by (intros ->; done). destruct (Hwt h Hne) as [Hwt1 Hwt2].
      exists h. rewrite Hwt1. split_and!; try done; [apply Hnodes; [apply Hh|done]|]. by rewrite Hwt2.
  - intros a c Ha Hc Hac. pose proof (td_anti _ _ Ht a c Ha Hc Hac) as H.
    destruct H as [H|H]; [left|right]; apply eq_None_not_Some; rewrite Hwm; by apply eq_None_not_Some.
  - intros h Hh Hne. destruct (decide (h = p)) as [->|Hhp].
    + exists p. split_and!; [done|done|by apply Hwm].
    + rewrite (proj1 (Hwt h Hhp)) in Hne. destruct (td_top _ _ Ht h Hh Hne) as (q&?&?&?). exists q. split_and!; try done. by apply Hwm.
  - intros h k i Hh H. rewrite Hin in H. destruct (td_in _ _ Ht h k i Hh H) as (q&?&?&?). exists q. auto.
  - intros h q k i Hh Wh Hhq Hq H. rewrite Hin. rewrite Hw in H. apply Hwm in Wh.
    destruct (decide (q = p)) as [->|Hqp]; [|by apply (td_cov _ _ Ht h q)].
    exfalso. apply (proj2 Hhq). apply (td_uniq t m h p p); try done. apply Hhq.
Qed.
(** Adding below a watched node. *)
Lemma tidy_below h k' :
  rpath h → watched m h → above h p →
  (∀ q, wp_at t' q = if decide (q = p) then A (wp_at t p) else if decide (q = inact h) then A (wp_at t (inact h)) else wp_at t q) →
  m' !! nameof h = Some (wt t' h, k') → (strict = true → k' = true) → (∀ x, x ≠ nameof h → m' !! x = m !! x) →
  tidy t' m'.
Proof.
  intros Hh Wh Hhp Hw Hm Hk' Hm'. assert ([] ∉ p) as Hpp by apply Hp. assert ([] ∉ h) as Hhh by apply Hh.
  assert (p ≠ inact h) as Hpi by (by apply inact_ne).
  assert (∀ q, watched m' q ↔ watched m q) as Hwm.
  { intros q. destruct (decide (nameof q = nameof h)) as [E|E].
    - rewrite E, Hm. split; [done|eauto].
    - by rewrite Hm'. }
  assert (∀ q, [] ∉ q → wp_at t' q = if decide (q = p) then A (wp_at t p) else wp_at t q) as Hpl.
  { intros q Hq. rewrite Hw. destruct (decide (q = p)); [done|]. by rewrite decide_False by (by apply inact_ne). }
  assert (∀ q, wp_at t' (inact q) = if decide (q = h) then A (wp_at t (inact h)) else wp_at t (inact q)) as Hin.
  { intros q. rewrite Hw, decide_False. 2:{ intros K. symmetry in K. by apply inact_ne in K. }
    destruct (decide (q = h)) as [->|Hqh]; [by rewrite decide_True|]. rewrite decide_False; [done|].
    intros K. by apply app_inj_tail in K as [K _]. }
  assert (∀ q, [] ∉ q → q ≠ p → q ≠ h → wt t' q = wt t q ∧ (wrec t' q ↔ wrec t q)) as Hwt.
  { intros q Hq Hqp Hqh. apply wt_exts; [by rewrite Hpl, decide_False|by rewrite Hin, decide_False]. }
  assert (∀ q k i, [] ∉ q → has (wget (wp_at t q) (KUser k)) i → has (wget (wp_at t' q) (KUser k)) i) as Hmono.
  { intros q k i Hq H. rewrite Hpl by done. destruct (decide (q = p)) as [->|]; [|done]. apply A_get. by left. }
  assert (∀ q, wpt (wp_at t' q)) as Hwpt.
  { intros q. rewrite Hw. destruct (decide (q = p)); [apply A_wpt; apply (td_wp _ _ Ht)|].
    destruct (decide (q = inact h)); [apply A_wpt|]; apply (td_wp _ _ Ht). }
  assert (¬ watched m p) as Wp.
  { intros K. apply (proj2 Hhp). apply (td_uniq t m h p p); try done. apply Hhp. }
  split.
  - done.
  - done.
  - intros x v Hx. destruct (decide (x = nameof h)) as [->|Hxh].
    + rewrite Hm in Hx. injection Hx as <-. exists h. destruct Wh as [v0 Hv0].
      destruct (td_at _ _ _ _ Ht Hh Hv0) as (_&_&Hs&_). split_and!; try done; [by apply Hnodes| |by intros [? _]; apply Hk'].
      cbn [fst]. intros Hz. apply wt_zero in Hz as [_ Hz]; [|done..]. rewrite Hin, decide_True in Hz by done. by eapply wadd_ne.
    + rewrite Hm' in Hx by done. destruct (td_os _ _ Ht _ _ Hx) as (q&Hq&->&Hs&H1&H2&H3).
      assert (q ≠ h) as Hne by (intros ->; done). assert (q ≠ p) as Hne' by (intros ->; apply Wp; eauto).
      destruct (Hwt q (proj1 Hq) Hne' Hne) as [Hwt1 Hwt2].
      exists q. rewrite Hwt1. split_and!; try done; [apply Hnodes; [apply Hq|done]|]. by rewrite Hwt2.
  - intros a c Ha Hc Hac. pose proof (td_anti _ _ Ht a c Ha Hc Hac) as H.
    destruct H as [H|H]; [left|right]; apply eq_None_not_Some; rewrite Hwm; by apply eq_None_not_Some.
  - intros q Hq Hne. destruct (decide (q = p)) as [->|Hqp]; [|destruct (decide (q = h)) as [->|Hqh]].
    + exists h. split_and!; [done|apply Hhp|by apply Hwm].
    + exists h. split_and!; [done|done|by apply Hwm].
    + rewrite (proj1 (Hwt q Hq Hqp Hqh)) in Hne. destruct (td_top _ _ Ht q Hq Hne) as (q'&?&?&?). exists q'. split_and!; try done. by apply Hwm.
  - intros q k i Hq H. rewrite Hin in H. destruct (decide (q = h)) as [->|Hqh].
    + apply A_get in H as [H|[-> H]].
      * destruct (td_in _ _ Ht h k i Hhh H) as (q'&?&?&?). exists q'. auto.
      * exists p. split_and!; [done|done|]. rewrite Hpl, decide_True by done. apply A_get. by right.
    + destruct (td_in _ _ Ht q k i Hq H) as (q'&?&?&?). exists q'. auto.
  - intros a q k i Ha Wa Haq Hq H. rewrite Hin. rewrite Hpl in H by done. apply Hwm in Wa.
    destruct (decide (q = p)) as [->|Hqp].
    + assert (a = h) as -> by (apply (td_uniq t m a h p); try done; [apply Haq|apply Hhp]).
      rewrite decide_True by done. apply A_get. apply A_get in H as [H|H]; [left|by right]. by apply (td_cov _ _ Ht h p).
    + destruct (decide (a = h)) as [->|Hah]; [apply A_get; left|]; by apply (td_cov _ _ Ht _ q).
Qed.
(** Watching a node with no watched node at or above it takes over the watches below. *)
Lemma tidy_over wi k' :
  (∀ q, rpath q → q `prefix_of` p → ¬ watched m q) → is_Some (t' !! p) →
  (∀ q, wp_at t' q = if decide (q = p) then A (wp_at t p) else if decide (q = inact p) then wi else wp_at t q) →
  wpt wi →
  (∀ k i, has (wget wi (KUser k)) i ↔ ∃ h, rpath h ∧ above p h ∧ watched m h ∧
     (has (wget (wp_at t h) (KUser k)) i ∨ has (wget (wp_at t (inact h)) (KUser k)) i)) →
  m' !! nameof p = Some (wt t' p, k') → (wrec t' p → k' = true) →
  (∀ h, rpath h → above p h → m' !! nameof h = None) →
  (∀ h, rpath h → h ≠ p → ¬ above p h → m' !! nameof h = m !! nameof h) →
  (∀ x, x ≠ nameof p → is_Some (m' !! x) → m' !! x = m !! x) →
  tidy t' m'.
Proof.
  intros Hno Hsp Hw Hwi Hwi' Hm Hk Hm1 Hm2 Hm3. assert ([] ∉ p) as Hpp by apply Hp.
  assert (p ≠ inact p) as Hpi by (by apply inact_ne).
  assert (∀ q, [] ∉ q → wp_at t' q = if decide (q = p) then A (wp_at t p) else wp_at t q) as Hpl.
  { intros q Hq. rewrite Hw. destruct (decide (q = p)); [done|]. by rewrite decide_False by (by apply inact_ne). }
  assert (∀ q, wp_at t' (inact q) = if decide (q = p) then wi else wp_at t (inact q)) as Hin.
  { intros q. rewrite Hw, decide_False. 2:{ intros K. symmetry in K. by apply inact_ne in K. }
    destruct (decide (q = p)) as [->|Hqh]; [by rewrite decide_True|]. rewrite decide_False; [done|].
    intros K. by apply app_inj_tail in K as [K _]. }
  assert (∀ q, [] ∉ q → q ≠ p → wt t' q = wt t q ∧ (wrec t' q ↔ wrec t q)) as Hwt.
  { intros q Hq Hqp. apply wt_exts; [by rewrite Hpl, decide_False|by rewrite Hin, decide_False]. }
  assert (∀ q k i, [] ∉ q → has (wget (wp_at t q) (KUser k)) i → has (wget (wp_at t' q) (KUser k)) i) as Hmono.
  { intros q k i Hq H. rewrite Hpl by done. destruct (decide (q = p)) as [->|]; [|done]. apply A_get. by left. }
  assert (∀ q, wpt (wp_at t' q)) as Hwpt.
  { intros q. rewrite Hw. destruct (decide (q = p)); [apply A_wpt; apply (td_wp _ _ Ht)|].
    destruct (decide (q = inact p)); [done|]; apply (td_wp _ _ Ht). }
  assert (∀ q, rpath q → watched m' q → q = p ∨ (¬ above p q ∧ ¬ q `prefix_of` p ∧ watched m q)) as Hwm.
  { intros q Hq Wq. destruct (decide (q = p)) as [->|Hqp]; [by left|right].
    assert (¬ above p q) as Hna. { intros K. rewrite Hm1 in Wq by done. by destruct Wq. }
    rewrite Hm2 in Wq by done. split_and!; try done. intros K. by apply (Hno q). }
  split.
  - done.
  - done.
  - intros x v Hx. destruct (decide (x = nameof p)) as [->|Hxp].
    + rewrite Hm in Hx. injection Hx as <-. exists p. split_and!; try done.
      cbn [fst]. intros Hz. apply wt_zero in Hz as [Hz _]; [|done..]. rewrite Hpl, decide_True in Hz by done. by eapply wadd_ne.
    + rewrite Hm3 in Hx by eauto. destruct (td_os _ _ Ht _ _ Hx) as (q&Hq&->&Hs&H1&H2&H3).
      assert (q ≠ p) as Hne by (intros ->; done).
      destruct (Hwt q (proj1 Hq) Hne) as [Hwt1 Hwt2].
      exists q. rewrite Hwt1. split_and!; try done; [apply Hnodes; [apply Hq|done]|]. by rewrite Hwt2.
  - intros a c Ha Hc Hac.
    destruct (decide (watched m' a)) as [Wa|Wa]; [|left; by apply eq_None_not_Some].
    destruct (decide (watched m' c)) as [Wc|Wc]; [|right; by apply eq_None_not_Some]. exfalso.
    destruct (Hwm a Ha Wa) as [->|(A1&A2&A3)], (Hwm c Hc Wc) as [->|(C1&C2&C3)].
    + by apply (proj2 Hac).
    + done.
    + apply A2, Hac.
    + destruct (td_anti _ _ Ht a c Ha Hc Hac) as [K|K]; [rewrite K in A3; by destruct A3|rewrite K in C3; by destruct C3].
  - intros q Hq Hne. destruct (decide (p `prefix_of` q)) as [Hpq|Hpq].
    + exists p. by split_and!.
    + assert (q ≠ p) as Hqp by (intros ->; by apply Hpq).
      rewrite (proj1 (Hwt q Hq Hqp)) in Hne. destruct (td_top _ _ Ht q Hq Hne) as (q'&H1&H2&H3). exists q'. split_and!; try done.
      rewrite Hm2; [done|done| |].
      * intros ->. done.
      * intros [K _]. apply Hpq. by etrans.
  - intros q k i Hq H. rewrite Hin in H. destruct (decide (q = p)) as [->|Hqh].
    + apply Hwi' in H as (h&Hh&Hph&Wh&[H|H]).
      * exists h. split_and!; [done|apply Hh|]. apply Hmono; [apply Hh|done].
      * destruct (td_in _ _ Ht h k i (proj1 Hh) H) as (q'&?&?&?). exists q'. split_and!; [|done|auto].
        eapply prefix_above; [apply Hph|done].
    + destruct (td_in _ _ Ht q k i Hq H) as (q'&?&?&?). exists q'. auto.
  - intros a q k i Ha Wa Haq Hq H. rewrite Hin. destruct (Hwm a Ha Wa) as [->|(A1&A2&A3)].
    + rewrite decide_True by done. apply Hwi'. rewrite Hpl, decide_False in H by (done || (intros ->; by apply (proj2 Haq))).
      assert (wt t q ≠ 0) as Hnz by (eapply wt_reg; [apply (td_wp _ _ Ht)|done]).
      destruct (td_top _ _ Ht q Hq Hnz) as (h&Hh&Hhq&Wh). exists h.
      assert (above p h) as Hph.
      { destruct (prefix_weak_total p h q (proj1 Haq) Hhq) as [K|K].
        - split; [done|]. intros ->. by apply (Hno h).
        - exfalso. by apply (Hno h). }
      split_and!; try done. destruct (decide (h = q)) as [->|Hne]; [by left|right].
      by apply (td_cov _ _ Ht h q).
    + assert (a ≠ p) as Hap by (intros ->; by apply A2). rewrite decide_False by done.
      assert (q ≠ p) as Hqp. { intros ->. apply A2, Haq. }
      rewrite Hpl, decide_False in H by done. by apply (td_cov _ _ Ht a q).
Qed.
End add.

(** Stop. *)
Lemma tidy_stop t t' m m' n :
  tidy t m → rinv t' → same_nodes t t' →
  (∀ q, [] ∉ q → wp_at t' q = sdel P n (wp_at t q) ∧ wp_at t' (inact q) = sdel P n (wp_at t (inact q))) →
  (∀ q, W0 P n t q t') →
  (∀ x, is_Some (m' !! x) → is_Some (m !! x)) →
  (∀ h, rpath h → watched m h → (wt t' h = 0 → m' !! nameof h = None) ∧
     (wt t' h ≠ 0 → ∃ k, m' !! nameof h = Some (wt t' h, k) ∧ (wrec t' h → k = true))) →
  tidy t' m'.
Proof.
  intros Ht Hi' Hn Hw HW Hm Hm'.
  assert (∀ q k i, [] ∉ q → has (wget (wp_at t' q) (KUser k)) i ↔ k ≠ n ∧ has (wget (wp_at t q) (KUser k)) i) as Hg.
  { intros q k i Hq. rewrite (proj1 (Hw q Hq)), (sdel_user P) by apply (td_wp _ _ Ht). destruct (decide (k = n)) as [->|]; [|naive_solver].
    split; [intros K; by apply has_0 in K|naive_solver]. }
  assert (∀ q k i, [] ∉ q → has (wget (wp_at t' (inact q)) (KUser k)) i ↔ k ≠ n ∧ has (wget (wp_at t (inact q)) (KUser k)) i) as Hgi.
  { intros q k i Hq. rewrite (proj2 (Hw q Hq)), (sdel_user P) by apply (td_wp _ _ Ht). destruct (decide (k = n)) as [->|]; [|naive_solver].
    split; [intros K; by apply has_0 in K|naive_solver]. }
  assert (∀ q, wpt (wp_at t' q)) as Hwpt.
  { intros q. destruct (HW q) as [-> | ->]; [|apply wpt_sdel]; apply (td_wp _ _ Ht). }
  assert (∀ h, [] ∉ h → wt t' h ≠ 0 → ∃ k i, has (wget (wp_at t' h) (KUser k)) i ∨ has (wget (wp_at t' (inact h)) (KUser k)) i) as Hnz.
  { intros h Hh [i H]%nonzero_bit. apply has_lor in H as [(k&H&_)%has_wtotal|(k&H&_)%has_wtotal]; try done; eauto. }
  assert (∀ h k i, has (wget (wp_at t' (inact h)) (KUser k)) i → wt t' h ≠ 0) as Hnzi.
  { intros h k i H Hz. apply (wpt_reg P _ _ _ (Hwpt _) H). unfold RecTidy.wt in Hz. clear - Hz. bits. }
  split; try done.
  - intros x v Hx. destruct (Hm x ltac:(eauto)) as [v0 Hv0].
    destruct (td_os _ _ Ht _ _ Hv0) as (h&Hh&->&Hs&H1&H2&H3). destruct (Hm' h Hh ltac:(eauto)) as [K1 K2].
    destruct (decide (wt t' h = 0)) as [Hz|Hz]; [rewrite K1 in Hx; done|].
    destruct (K2 Hz) as (k&Hk&Hr). rewrite Hk in Hx. injection Hx as <-. exists h. split_and!; try done. by apply Hn.
  - intros a c Ha Hc Hac. destruct (td_anti _ _ Ht a c Ha Hc Hac) as [K|K]; [left|right];
      apply eq_None_not_Some; intros X%Hm; rewrite K in X; by destruct X.
  - intros h Hh Hne. destruct (Hnz h Hh Hne) as (k&i&Hki).
    assert (wt t h ≠ 0) as Hne0.
    { destruct Hki as [[_ K]%Hg|[_ K]%Hgi]; try done.
      - eapply wt_reg; [apply (td_wp _ _ Ht)|done].
      - intros Hz. apply wt_zero in Hz as [_ Hz]; [|apply (td_wp _ _ Ht)..]. rewrite Hz, wget_empty in K. by apply has_0 in K. }
    destruct (td_top _ _ Ht h Hh Hne0) as (q&Hq&Hqh&Wq). exists q. split_and!; try done.
    destruct (Hm' q Hq Wq) as [_ K2]. destruct (K2) as (k'&->&_); [|eauto].
    destruct (decide (q = h)) as [->|Hqne]; [done|].
    assert (∃ r, above q r ∧ [] ∉ r ∧ has (wget (wp_at t r) (KUser k)) i ∧ k ≠ n) as (r&R1&R2&R3&R4).
    { destruct Hki as [[? K]%Hg|[? K]%Hgi]; try done.
      - exists h. split_and!; done.
      - destruct (td_in _ _ Ht h k i Hh K) as (r&?&?&?). exists r. split_and!; try done. by eapply prefix_above. }
    apply (Hnzi q k i). apply Hgi; [apply Hq|]. split; [done|]. by apply (td_cov _ _ Ht q r).
  - intros h k i Hh H. apply Hgi in H as [Hk H]; [|done]. destruct (td_in _ _ Ht h k i Hh H) as (q&?&?&?).
    exists q. split_and!; try done. by apply Hg.
  - intros h q k i Hh Wh Hhq Hq H. apply Hgi; [apply Hh|]. apply Hg in H as [Hk H]; [|done]. split; [done|].
    apply (td_cov _ _ Ht h q); try done. by apply Hm.
Qed.
End trans.
End os.
