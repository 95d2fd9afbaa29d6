(** * RecStop: traversals that update every node, and Stop on the recursive tree *)
From Verif Require Import Base Event Watchpoint WatchpointFacts Paths PathsFacts Loop LoopFacts
  Node NodeFacts SpecTree WalkFacts RootFacts NonRec NonRecWp Rec SpecNonRec SpecRec RecFacts RecReg.
Local Open Scope N_scope.

(** ** A walk whose callback establishes something about each node *)
Section mark.
Context (E : env) (Hord : ∀ n l, e_ord E n l ≡ₚ l) (fn : st → path → st * cb).
Context (Hfn : ∀ s h, same_nodes (st_tree s) (st_tree (fn s h).1)).
(** [R] holds of every state, [M q] once [q] was visited or skipped with a node
    above it, [N q] of the nodes below which the walk went on. *)
Context (R : st → Prop) (M : path → st → Prop) (N : path → Prop).
Context (t0 : tree) (h0 : path).
Context (Hstep : ∀ s h, R s → same_nodes t0 (st_tree s) → reach t0 h0 h → (∀ q, h0 `prefix_of` q → above q h → N q ∧ M q s) →
  R (fn s h).1 ∧ (fn s h).2 ≠ CErr ∧ M h (fn s h).1 ∧
  ((fn s h).2 = CSkip → ∀ q, reach t0 h q → M q (fn s h).1) ∧
  ((fn s h).2 = CNil → N h) ∧
  (∀ q, M q s → M q (fn s h).1)).
Context (HR : ∀ s, R s → R (ticked s)) (HM : ∀ q s, M q s → M q (ticked s)).

Lemma walk_mark s :
  closed t0 → st_tree s = t0 → is_Some (t0 !! h0) → R s →
  ∃ s', nd_walk E fn s h0 = (s', LDone) ∧ R s' ∧ same_nodes t0 (st_tree s') ∧ ∀ q, reach t0 h0 q → M q s'.
Proof.
  intros Hcl Ht Hh HRs.
  destruct (nd_walk E fn s h0) as [s' r] eqn:Ew.
  assert (r ≠ LFuel) as Hf.
  { pose proof (nd_walk_terminates E Hord fn Hfn s h0) as K. rewrite Ew, Ht in K. by apply K. }
  set (Inv := λ vis s1 stack, walk_inv fn t0 h0 vis s1 stack ∧ R s1 ∧
    (∀ q, q ∈ vpaths vis → M q s1) ∧
    (∀ p q, skipped fn vis p → p `prefix_of` q → reach t0 h0 q → M q s1) ∧
    (∀ q, q ∈ vpaths vis → N q ∨ skipped fn vis q)).
  pose proof (visits_ind (walk_step E fn) Inv (λ _ _, False) (S (size t0)) [] s [h0] s' r) as H.
  simpl in H. unfold nd_walk in Ew. rewrite Ht in Ew.
  assert (match r with
          | LDone => Inv (visits (walk_step E fn) (S (size t0)) s [h0]) s' []
          | LFuel => ∃ stack', Inv (visits (walk_step E fn) (S (size t0)) s [h0]) s' stack'
          | LErr => False end) as K.
  { apply H; clear H; [| | |exact Ew].
    - intros vis s1 p rest s2 l (Hi&HR1&Hv&Hsk&Hn) Hst.
      assert (reach t0 h0 p) as Hrp by (apply (wi_stack _ _ _ _ _ _ Hi); left).
      assert (same_nodes t0 (st_tree s1)) as Hsn by apply Hi.
      destruct (Hstep s1 p HR1 Hsn Hrp) as (K1&K2&K3&K4&K5&K6).
      { intros q Hq [Hqp Hne].
        assert (q ∈ vpaths vis) as Hqv by (eapply (wi_sorder _ _ _ _ _ _ Hi); [left|done..]).
        split; [|by apply Hv]. destruct (Hn q Hqv) as [?|Hskq]; [done|].
        exfalso. destruct (wi_skip _ _ _ _ _ _ Hi q p Hskq Hqp Hne) as [_ []]. apply under_cons. by left. }
      assert (R s2 ∧ (∀ q, M q (fn s1 p).1 → M q s2)) as [HR2 HM2].
      { unfold walk_step in Hst. destruct (fn s1 p) as [s3 [| |]]; simpl in *; [|by injection Hst as <- _|done].
        injection Hst as <- _. eauto. }
      split_and!.
      + by eapply walk_inv_step.
      + done.
      + intros q. unfold vpaths. rewrite fmap_app. simpl. intros [Hq| ->%elem_of_list_singleton]%elem_of_app; auto.
      + intros x q Hx Hxq Hq. apply skipped_app in Hx as [Hx|[-> Hx]]; [eauto|].
        apply HM2. apply K4; [done|]. destruct Hq as [Hq1 (r1&Hr1&Hnil)]. split; [done|].
        destruct Hxq as [r2 ->]. exists r2. split; [done|].
        destruct Hrp as [_ (r3&->&_)]. rewrite <-app_assoc in Hr1. apply app_inv_head in Hr1 as <-. set_solver.
      + intros q. unfold vpaths. rewrite fmap_app. simpl. rewrite skipped_app.
        intros [Hq| ->%elem_of_list_singleton]%elem_of_app; [destruct (Hn q Hq); auto|].
        destruct ((fn s1 p).2) eqn:Er; [auto|auto|done].
    - intros vis s1 p rest s2 (Hi&HR1&Hv&Hsk&Hn) Hst.
      assert (reach t0 h0 p) as Hrp by (apply (wi_stack _ _ _ _ _ _ Hi); left).
      assert (same_nodes t0 (st_tree s1)) as Hsn by apply Hi.
      destruct (Hstep s1 p HR1 Hsn Hrp) as (K1&K2&_).
      { intros q Hq [Hqp Hne].
        assert (q ∈ vpaths vis) as Hqv by (eapply (wi_sorder _ _ _ _ _ _ Hi); [left|done..]).
        split; [|by apply Hv]. destruct (Hn q Hqv) as [?|Hskq]; [done|].
        exfalso. destruct (wi_skip _ _ _ _ _ _ Hi q p Hskq Hqp Hne) as [_ []]. apply under_cons. by left. }
      unfold walk_step in Hst. destruct (fn s1 p) as [s3 [| |]]; simpl in *; done.
    - split_and!.
      + rewrite <-Ht. apply (walk_inv_init E Hord fn Hfn). by rewrite Ht.
      + done.
      + intros q Hq. by apply elem_of_nil in Hq.
      + intros p q (?&Hq&_). by apply elem_of_nil in Hq.
      + intros q Hq. by apply elem_of_nil in Hq. }
  destruct r; [|done|done]. exists s'. destruct K as (Hi&HR'&Hv&Hsk&_). split_and!; [done|done|apply Hi|].
  intros q Hq. destruct (wi_cover _ _ _ _ _ _ Hi q Hq) as [Hq'|[Hu|(p&Hp&Hpq&_)]]; [auto| |eauto].
  exfalso. by eapply under_nil.
Qed.
End mark.

Section rec.
Context (P : platform) (sepc : ascii) (w : bool) (isvol : str → Prop).
Notation nameof := (nameof sepc w).
Notation renv := (renv P sepc w isvol).
Notation rpath := (rpath sepc w isvol).
Notation wpd := (wpd P).
Notation rinv := (rinv P sepc w isvol).

Section stop.
Context (E : env) (HE : renv E) (n : positive).
Notation c := (KUser n).
(** What Stop makes of a watchpoint. *)
Definition sdel (wp : watchpoint) : watchpoint := (wdel P wp c all32).1.
Lemma sdel_empty : sdel ∅ = ∅.
Proof.
  unfold sdel. apply map_eq. intros k. rewrite lookup_empty. destruct (decide (k = KNil)) as [->|Hk].
  - pose proof (wdel_agg P ∅ c all32 ltac:(done)) as Ha. unfold agg_ok in Ha. rewrite Ha.
    rewrite bool_decide_true; [done|]. apply map_eq. intros k'. rewrite lookup_empty.
    destruct (decide (k' = KNil)) as [->|Hk']; [by rewrite lookup_delete|].
    rewrite lookup_delete_ne, wdel_get by done. unfold wget. rewrite lookup_empty. by destruct (bool_decide (k' = c)).
  - rewrite wdel_get by done. unfold wget. rewrite lookup_empty. by destruct (bool_decide (k = c)).
Qed.
Lemma agg_ok_ext (wp wp' : watchpoint) :
  agg_ok P wp → agg_ok P wp' → (∀ k, k ≠ KNil → wp !! k = wp' !! k) → wp = wp'.
Proof.
  intros H1 H2 Hk. assert (delete KNil wp = delete KNil wp') as Hd.
  { apply map_eq. intros k. destruct (decide (k = KNil)) as [->|Hne]; [by rewrite !lookup_delete|].
    rewrite !lookup_delete_ne by done. auto. }
  apply map_eq. intros k. destruct (decide (k = KNil)) as [->|Hne]; [|auto].
  unfold agg_ok in *. rewrite H1, H2. unfold others. by rewrite Hd.
Qed.
Lemma ldiff_twice a x : (a .&^ x) .&^ x = a .&^ x.
Proof. clear. bits. Qed.
Lemma sdel_idem wp : sdel (sdel wp) = sdel wp.
Proof.
  unfold sdel. apply agg_ok_ext; [by apply wdel_agg..|]. intros k Hk. rewrite wdel_get by done.
  case_bool_decide as Hc; [|done]. subst k. rewrite wdel_wget, wdel_get by done.
  rewrite !bool_decide_true by done. by rewrite ldiff_twice.
Qed.

Lemma node_wdel_nodes s h x : same_nodes (st_tree s) (st_tree (node_wdel E s h c x).1).
Proof.
  unfold node_wdel. destruct (wdel (e_plat E) (wp_at (st_tree s) h) c x) as [wp d].
  destruct (st_tree s !! h ≫= nwatch); apply same_nodes_set_wp.
Qed.
Lemma rwatchDel_nodes s h x : same_nodes (st_tree s) (st_tree (rwatchDel E s h c x).1).
Proof.
  unfold rwatchDel. pose proof (node_wdel_nodes s h x) as H1.
  destruct (node_wdel E s h c x) as [s1 d]. cbn [fst] in *. destruct (size _ =? 0)%nat; [done|].
  pose proof (node_wdel_nodes s1 (inact h) x) as H2. destruct (node_wdel E s1 (inact h) c x) as [s2 d2].
  cbn [fst] in *. by eapply same_nodes_trans.
Qed.
Lemma walk_del_nodes s h :
  same_nodes (st_tree s) (st_tree (nd_walk E (λ s h, ((rwatchDel E s h c all32).1, CNil)) s h).1).
Proof.
  unfold nd_walk. destruct (loop _ _ _ _) as [s' r] eqn:El. cbn [fst].
  set (Q := λ x : st, same_nodes (st_tree s) (st_tree x)).
  assert (∀ x h x' y, Q x → walk_step E (λ s h, ((rwatchDel E s h c all32).1, CNil)) x h = (x', y) → Q x') as Hstep.
  { intros x h0 x' y Hq Hs. unfold walk_step in Hs. cbn [range_children] in Hs. injection Hs as <- _. unfold Q in *.
    eapply same_nodes_trans; [exact Hq|]. cbn [ticked st_tree]. apply rwatchDel_nodes. }
  pose proof (loop_ind (walk_step E (λ s h, ((rwatchDel E s h c all32).1, CNil))) (λ x _, Q x) Q _ _ _ _ _
    (λ x h _ x' l Hq Hs, Hstep x h x' _ Hq Hs) (λ x h _ x' Hq Hs, Hstep x h x' _ Hq Hs) (same_nodes_refl _) El) as H.
  destruct r; [exact H|exact H|by destruct H as [? H]].
Qed.
Lemma rstop_nodes s h : same_nodes (st_tree s) (st_tree (rstop_fn E c s h).1).
Proof.
  unfold rstop_fn. pose proof (rwatchDel_nodes s h all32) as H1. destruct (rwatchDel E s h c all32) as [s1 d]. cbn [fst] in H1.
  destruct (is_none d && _); [done|]. cbn [fst].
  set (s2 := if is_none d then s1 else _).
  assert (st_tree s2 = st_tree s1) as H2.
  { unfold s2. destruct (is_none d); [done|]. destruct (d.2 =? 0); by destruct (watchIsRecursive _ _ _). }
  eapply same_nodes_trans; [exact H1|]. rewrite <-H2. apply walk_del_nodes.
Qed.

(** One deletion. *)
Lemma rwatchDel_wp s h :
  rinv (st_tree s) → [] ∉ h → is_Some (st_tree s !! h) →
  rinv (st_tree (rwatchDel E s h c all32).1) ∧
  st_panic (rwatchDel E s h c all32).1 = st_panic s ∧ st_log (rwatchDel E s h c all32).1 = st_log s ∧
  ∀ q, wp_at (st_tree (rwatchDel E s h c all32).1) q =
    if decide (q = h ∨ q = inact h) then sdel (wp_at (st_tree s) q) else wp_at (st_tree s) q.
Proof.
  intros Ht Hh Hs.
  destruct (del_rureg P sepc w isvol E HE n s h all32 h n Ht Hh Hs Hh) as [Hr _].
  destruct (rwatchDel_put P sepc w isvol E s h c all32 (re_plat _ _ _ _ _ HE) Ht Hh Hs) as (_&_&Hp&Hl).
  split_and!; try done. intros q. clear Hr Hp Hl.
  unfold rwatchDel, node_wdel. rewrite (re_plat _ _ _ _ _ HE).
  assert (∀ wp, (wdel P wp c all32).1 = sdel wp) as Hsd by done.
  pose proof (Hsd (wp_at (st_tree s) h)) as Hd1.
  destruct (wdel P (wp_at (st_tree s) h) c all32) as [wp d]. cbn [fst] in Hd1. subst wp. rewrite (rinv_some _ _ _ _ _ _ Ht Hh Hs).
  cbn [fst]. set (s1 := with_tree s (set_wp (st_tree s) h (sdel (wp_at (st_tree s) h)))).
  assert (h ≠ inact h) as Hne by (intros E0; apply (inact_not_plain h h Hh E0)).
  assert (wp_at (st_tree s1) (inact h) = wp_at (st_tree s) (inact h)) as Hi.
  { unfold s1. cbn [with_tree st_tree]. rewrite wp_at_set_wp. rewrite decide_False; [done|]. intros [K _]. by apply Hne. }
  assert (∀ x, x ≠ inact h → wp_at (st_tree s1) x = if decide (x = h) then sdel (wp_at (st_tree s) x) else wp_at (st_tree s) x) as Hx.
  { intros x _. unfold s1. cbn [with_tree st_tree]. rewrite wp_at_set_wp. destruct (decide (x = h)) as [->|Hxh].
    - by rewrite decide_True.
    - rewrite decide_False; [done|]. naive_solver. }
  destruct (Nat.eqb_spec (size (wp_at (st_tree s1) (inact h))) 0) as [Hz|Hz].
  { cbn [fst]. destruct (decide (q = inact h)) as [->|Hq].
    - rewrite decide_True by (by right). rewrite Hi. rewrite Hi in Hz. apply map_size_empty_inv in Hz as ->. by rewrite sdel_empty.
    - rewrite Hx by done. destruct (decide (q = h)) as [->|Hqh]; [by rewrite decide_True by (by left)|].
      rewrite decide_False; [done|]. naive_solver. }
  pose proof (Hsd (wp_at (st_tree s1) (inact h))) as Hd2.
  destruct (wdel P (wp_at (st_tree s1) (inact h)) c all32) as [wp' d']. cbn [fst] in Hd2. subst wp'.
  assert (∃ wi, st_tree s1 !! inact h ≫= nwatch = Some wi) as [wi Hwi].
  { unfold wp_at in Hz. destruct (st_tree s1 !! inact h) as [nd|]; simpl; [|by rewrite map_size_empty in Hz].
    destruct (nwatch nd); simpl in *; [eauto|]. by rewrite map_size_empty in Hz. }
  rewrite Hwi. cbn [fst with_tree st_tree]. rewrite wp_at_set_wp.
  destruct (decide (q = inact h)) as [->|Hq].
  - rewrite decide_True. 2:{ split; [done|]. destruct (st_tree s1 !! inact h); [eauto|done]. }
    rewrite Hi. by rewrite decide_True by (by right).
  - rewrite decide_False by naive_solver. rewrite Hx by done. destruct (decide (q = h)) as [->|Hqh]; [by rewrite decide_True by (by left)|].
    rewrite decide_False; [done|]. naive_solver.
Qed.

(** Along a Stop every watchpoint is as before or has been treated. *)
Definition W0 (t0 : tree) (q : path) (t : tree) : Prop := wp_at t q = wp_at t0 q ∨ wp_at t q = sdel (wp_at t0 q).
Definition stopped (t0 : tree) (q : path) (s : st) : Prop :=
  wp_at (st_tree s) q = sdel (wp_at t0 q) ∧ wp_at (st_tree s) (inact q) = sdel (wp_at t0 (inact q)).
Record stopping (t0 : tree) (s : st) : Prop := {
  sg_inv : rinv (st_tree s);
  sg_nodes : same_nodes t0 (st_tree s);
  sg_wp : ∀ q, W0 t0 q (st_tree s);
}.
Lemma stopping_tree t0 s s' : st_tree s' = st_tree s → stopping t0 s → stopping t0 s'.
Proof. intros H [H1 H2 H3]. split; by rewrite H. Qed.
Lemma stopped_tree t0 q s s' : st_tree s' = st_tree s → stopped t0 q s → stopped t0 q s'.
Proof. intros H [H1 H2]. split; by rewrite H. Qed.
Lemma stopping_del t0 s h :
  stopping t0 s → [] ∉ h → is_Some (t0 !! h) →
  stopping t0 (rwatchDel E s h c all32).1 ∧ stopped t0 h (rwatchDel E s h c all32).1 ∧
  (∀ q, stopped t0 q s → stopped t0 q (rwatchDel E s h c all32).1).
Proof.
  intros [Hi Hn Hw] Hh Hs. assert (is_Some (st_tree s !! h)) as Hs' by (by apply Hn).
  destruct (rwatchDel_wp s h Hi Hh Hs') as (H1&_&_&H2).
  assert (∀ q, W0 t0 q (st_tree s) → sdel (wp_at (st_tree s) q) = sdel (wp_at t0 q)) as Hsd.
  { intros q [-> | ->]; [done|]. apply sdel_idem. }
  assert (∀ q, wp_at (st_tree s) q = sdel (wp_at t0 q) →
     wp_at (st_tree (rwatchDel E s h c all32).1) q = sdel (wp_at t0 q)) as Hst.
  { intros q Hq. rewrite H2. destruct (decide (q = h ∨ q = inact h)); [|done]. rewrite Hq. apply sdel_idem. }
  split_and!.
  - split; [done| |].
    + eapply same_nodes_trans; [exact Hn|]. apply rwatchDel_nodes.
    + intros q. unfold W0. rewrite H2. destruct (decide (q = h ∨ q = inact h)); [|apply Hw].
      right. by apply Hsd.
  - split; rewrite H2.
    + rewrite decide_True by (by left). by apply Hsd.
    + rewrite decide_True by (by right). by apply Hsd.
  - intros q [K1 K2]. split; auto.
Qed.
(** The inner walk of Stop. *)
Lemma walk_del_spec t0 s h :
  stopping t0 s → closed t0 → [] ∉ h → is_Some (t0 !! h) →
  let s' := (nd_walk E (λ s h, ((rwatchDel E s h c all32).1, CNil)) s h).1 in
  stopping t0 s' ∧ st_panic s' = st_panic s ∧ st_log s' = st_log s ∧
  (∀ q, reach t0 h q → stopped t0 q s') ∧ (∀ q, stopped t0 q s → stopped t0 q s') ∧
  (∀ q, ¬ h `prefix_of` q → wp_at (st_tree s') q = wp_at (st_tree s) q).
Proof.
  intros Hst Hcl Hh Hs. cbv zeta.
  set (fn := λ s h, ((rwatchDel E s h c all32).1, CNil)).
  set (R := λ x, stopping t0 x ∧ st_panic x = st_panic s ∧ st_log x = st_log s ∧ (∀ q, stopped t0 q s → stopped t0 q x) ∧
    (∀ q, ¬ h `prefix_of` q → wp_at (st_tree x) q = wp_at (st_tree s) q)).
  assert (closed (st_tree s)) as Hcl' by (eapply closed_same; [apply Hst|done]).
  destruct (walk_mark E (eo_ord _ (re_ok _ _ _ _ _ HE)) fn (λ s h, rwatchDel_nodes s h all32)
    R (λ q x, stopped t0 q x) (λ _, True) (st_tree s) h) with (s := s) as (s'&Hw&HR&Hn&HM); try done.
  - intros x h1 (K1&K2&K3&K4&K5) Hsn [Hx (r&->&Hr)] _. cbn [fn fst snd].
    assert ([] ∉ h ++ r) as Hp1 by set_solver.
    assert (is_Some (t0 !! (h ++ r))) as Hs1 by (by apply (sg_nodes _ _ Hst)).
    destruct (stopping_del t0 x (h ++ r) K1 Hp1 Hs1) as (L1&L2&L3).
    assert (is_Some (st_tree x !! (h ++ r))) as Hsx by (by apply (sg_nodes _ _ K1)).
    destruct (rwatchDel_wp x (h ++ r) (sg_inv _ _ K1) Hp1 Hsx) as (_&M1&M2&M3).
    split_and!; try done. split_and!; [done|by rewrite M1|by rewrite M2|auto|].
    intros q Hq. rewrite M3, decide_False; [by apply K5|].
    intros [->| ->]; apply Hq; [by apply prefix_app_r|]. unfold inact. rewrite <-app_assoc. by apply prefix_app_r.
  - intros x (K1&K2&K3&K4&K5). split_and!; try done. eapply stopping_tree; [|eassumption]; done.
  - apply (sg_nodes _ _ Hst). done.
  - rewrite Hw. cbn [fst]. destruct HR as (K1&K2&K3&K4&K5). split_and!; try done.
    intros q [Hq Hr]. apply HM. split; [|done]. by apply (sg_nodes _ _ Hst).
Qed.

(** The watcher calls one visit of Stop makes. *)
Definition stop_calls (s s' : st) : Prop := st_log s' = st_log s ∨ ∃ x, st_log s' = st_log s ++ [x].
Lemma rstop_spec t0 s h :
  stopping t0 s → closed t0 → [] ∉ h → is_Some (t0 !! h) →
  let s' := (rstop_fn E c s h).1 in
  stopping t0 s' ∧ st_panic s' = st_panic s ∧ (rstop_fn E c s h).2 ≠ CErr ∧
  stopped t0 h s' ∧ ((rstop_fn E c s h).2 = CSkip → ∀ q, reach t0 h q → stopped t0 q s') ∧
  (∀ q, stopped t0 q s → stopped t0 q s').
Proof.
  intros Hst Hcl Hh Hs. cbv zeta. unfold rstop_fn.
  destruct (stopping_del t0 s h Hst Hh Hs) as (L1&L2&L3).
  assert (is_Some (st_tree s !! h)) as Hs' by (by apply (sg_nodes _ _ Hst)).
  destruct (rwatchDel_wp s h (sg_inv _ _ Hst) Hh Hs') as (_&M1&_&_).
  destruct (rwatchDel E s h c all32) as [s1 d]. cbn [fst] in *.
  destruct (is_none d && _); [done|].
  set (s2 := if is_none d then s1 else _).
  assert (st_tree s2 = st_tree s1 ∧ st_panic s2 = st_panic s1) as [H2 H3].
  { unfold s2. destruct (is_none d); [done|]. destruct (d.2 =? 0); by destruct (watchIsRecursive _ _ _). }
  destruct (walk_del_spec t0 s2 h) as (K1&K2&K3&K4&K5&_); try done.
  { eapply stopping_tree; [|eassumption]; done. }
  cbn [fst snd]. split_and!; try done.
  - by rewrite K2, H3, M1.
  - apply K4. split; [done|]. exists []. split; [by rewrite app_nil_r|set_solver].
  - intros q Hq. apply K5. eapply stopped_tree; [exact H2|]. auto.
Qed.
Lemma rec_Stop_spec s :
  rinv (st_tree s) →
  let s' := rec_Stop E s c in
  rinv (st_tree s') ∧ same_nodes (st_tree s) (st_tree s') ∧ st_panic s' = st_panic s ∧
  ∀ q, [] ∉ q → wp_at (st_tree s') q = sdel (wp_at (st_tree s) q) ∧ wp_at (st_tree s') (inact q) = sdel (wp_at (st_tree s) (inact q)).
Proof.
  intros Ht. cbv zeta. unfold rec_Stop. set (t0 := st_tree s).
  assert (closed t0) as Hcl by (by eapply rinv_closed).
  destruct (walk_mark E (eo_ord _ (re_ok _ _ _ _ _ HE)) (rstop_fn E c) rstop_nodes
    (λ x, stopping t0 x ∧ st_panic x = st_panic s) (λ q x, stopped t0 q x) (λ _, True) t0 []) with (s := s) as (s'&Hw&HR&Hn&HM); try done.
  - intros x h1 (K1&K2) Hsn [Hx (r&->&Hr)] _. rewrite app_nil_l in *.
    destruct (rstop_spec t0 x r K1 Hcl Hr Hx) as (L1&L2&L3&L4&L5&L6). split_and!; try done. by rewrite L2.
  - intros x (K1&K2). split; [|done]. eapply stopping_tree; [|eassumption]; done.
  - apply (twf_root _ _ _ (ri_wf _ _ _ _ _ Ht)).
  - split; [|done]. split; [done|done|]. intros q. by left.
  - rewrite Hw. cbn [fst]. destruct HR as ([K1 K2 K3]&K4). split_and!; try done.
    intros q Hq. destruct (decide (is_Some (t0 !! q))) as [Hs|Hs].
    + apply HM. split; [done|]. by exists q.
    + assert (∀ x, is_Some (st_tree s' !! x) ↔ is_Some (t0 !! x)) as Hsn by (intros x; by rewrite (K2 x)).
      assert (∀ x, ¬ is_Some (t0 !! x) → wp_at (st_tree s') x = sdel (wp_at t0 x)) as Hx.
      { intros x Hx. unfold wp_at. destruct (t0 !! x) eqn:Ex; [destruct Hx; eauto|].
        destruct (st_tree s' !! x) eqn:Ex'; [|by rewrite sdel_empty]. destruct Hx. rewrite <-Ex. apply Hsn. eauto. }
      split; apply Hx; [done|]. intros Hi. apply Hs. by apply (Hcl q []).
Qed.
Lemma sdel_user wp m : wpd wp → wget (sdel wp) (KUser m) = if decide (m = n) then 0 else wget wp (KUser m).
Proof.
  intros Hwp. unfold sdel. rewrite rureg_wdel. destruct (decide (m = n)) as [->|]; [|done].
  apply u32_all. by eapply wpd_get_u32.
Qed.
End stop.
End rec.
