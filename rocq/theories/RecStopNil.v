(** * RecStopNil: what Stop(nil) does to the recursive tree *)
From Verif Require Import Base Event Watchpoint WatchpointFacts Paths PathsFacts Loop LoopFacts
  Node NodeFacts SpecTree WalkFacts RootFacts NonRec NonRecWp Rec SpecNonRec SpecRec RecFacts RecReg RecStop RecStep.
Local Open Scope N_scope.

Section nil.
Context (P : platform) (sepc : ascii) (w : bool) (isvol : str → Prop).
Notation renv := (renv P sepc w isvol).
Notation rinv := (rinv P sepc w isvol).
Notation wpd := (wpd P).
(** Del(nil, e) computes the aggregate again. *)
Lemma wdel_nil_wp wp e :
  (wdel P wp KNil e).1 = if bool_decide (delete KNil wp = ∅) then ∅ else <[KNil := others wp .&^ omit P]> wp.
Proof.
  unfold wdel. set (wp1 := <[KNil := wget wp KNil .&^ e]> wp). set (wp2 := if wget wp1 KNil =? 0 then delete KNil wp1 else wp1).
  assert (delete KNil wp2 = delete KNil wp) as ->.
  { unfold wp2, wp1. destruct (_ =? 0); [rewrite delete_idemp|]; by rewrite delete_insert_delete. }
  case_bool_decide as Hz; cbn [fst]; [done|]. rewrite insert_delete_insert. done.
Qed.
Lemma wdel_nil_get wp e k : k ≠ KNil → (wdel P wp KNil e).1 !! k = wp !! k.
Proof.
  intros Hk. rewrite wdel_nil_wp. case_bool_decide as Hz; [|by rewrite lookup_insert_ne].
  rewrite <-(lookup_delete_ne wp KNil k) by done. by rewrite Hz.
Qed.
Lemma wdel_nil_agg wp e : agg_ok P (wdel P wp KNil e).1.
Proof.
  rewrite wdel_nil_wp. case_bool_decide as Hz; [apply agg_ok_empty|].
  unfold agg_ok. rewrite lookup_insert, delete_insert_delete, bool_decide_false by done. do 2 f_equal. unfold others. by rewrite delete_insert_delete.
Qed.
Lemma wpd_wdel_nil wp e : wpd wp → wpd (wdel P wp KNil e).1.
Proof.
  intros [H1 H2 H3 H4 H5]. apply wpd_agg_ok.
  - by rewrite wdel_nil_get.
  - intros n x. rewrite wdel_nil_get by done. apply H2.
  - intros n x. rewrite wdel_nil_get by done. apply H3.
  - apply wdel_nil_agg.
Qed.

Context (E : env) (HE : renv E).
Lemma node_wdel_nodes0 s h x : same_nodes (st_tree s) (st_tree (node_wdel E s h KNil x).1).
Proof.
  unfold node_wdel. destruct (wdel (e_plat E) (wp_at (st_tree s) h) KNil x) as [wp d].
  destruct (st_tree s !! h ≫= nwatch); apply same_nodes_set_wp.
Qed.
Lemma rwatchDel_nodes0 s h x : same_nodes (st_tree s) (st_tree (rwatchDel E s h KNil x).1).
Proof.
  unfold rwatchDel. pose proof (node_wdel_nodes0 s h x) as H1.
  destruct (node_wdel E s h KNil x) as [s1 d]. cbn [fst] in *. destruct (size _ =? 0)%nat; [done|].
  pose proof (node_wdel_nodes0 s1 (inact h) x) as H2. destruct (node_wdel E s1 (inact h) KNil x) as [s2 d2].
  cbn [fst] in *. by eapply same_nodes_trans.
Qed.
Lemma walk_del_nodes0 s h :
  same_nodes (st_tree s) (st_tree (nd_walk E (λ s h, ((rwatchDel E s h KNil all32).1, CNil)) s h).1).
Proof.
  unfold nd_walk. destruct (loop _ _ _ _) as [s' r] eqn:El. cbn [fst].
  set (Q := λ x : st, same_nodes (st_tree s) (st_tree x)).
  assert (∀ x h x' y, Q x → walk_step E (λ s h, ((rwatchDel E s h KNil all32).1, CNil)) x h = (x', y) → Q x') as Hstep.
  { intros x h0 x' y Hq Hs. unfold walk_step in Hs. cbn [range_children] in Hs. injection Hs as <- _. unfold Q in *.
    eapply same_nodes_trans; [exact Hq|]. cbn [ticked st_tree]. apply rwatchDel_nodes0. }
  pose proof (loop_ind (walk_step E (λ s h, ((rwatchDel E s h KNil all32).1, CNil))) (λ x _, Q x) Q _ _ _ _ _
    (λ x h _ x' l Hq Hs, Hstep x h x' _ Hq Hs) (λ x h _ x' Hq Hs, Hstep x h x' _ Hq Hs) (same_nodes_refl _) El) as H.
  destruct r; [exact H|exact H|by destruct H as [? H]].
Qed.
Lemma rstop_nodes0 s h : same_nodes (st_tree s) (st_tree (rstop_fn E KNil s h).1).
Proof.
  unfold rstop_fn. pose proof (rwatchDel_nodes0 s h all32) as H1. destruct (rwatchDel E s h KNil all32) as [s1 d]. cbn [fst] in H1.
  destruct (is_none d && _); [done|]. cbn [fst].
  set (s2 := if is_none d then s1 else _).
  assert (st_tree s2 = st_tree s1) as H2.
  { unfold s2. destruct (is_none d); [done|]. destruct (d.2 =? 0); by destruct (watchIsRecursive _ _ _). }
  eapply same_nodes_trans; [exact H1|]. rewrite <-H2. apply walk_del_nodes0.
Qed.

(** What does not change. *)
Definition kept (s x : st) : Prop :=
  rinv (st_tree x) ∧ st_panic x = st_panic s ∧ ∀ q n, [] ∉ q → rureg (st_tree x) q n = rureg (st_tree s) q n.
Lemma kept_refl s : rinv (st_tree s) → kept s s.
Proof. done. Qed.
Lemma kept_trans s x y : kept s x → kept x y → kept s y.
Proof. intros (A1&A2&A3) (B1&B2&B3). split_and!; [done|congruence|]. intros q n Hq. by rewrite B3, A3. Qed.
Lemma rwatchDel_kept s h : rinv (st_tree s) → [] ∉ h → is_Some (st_tree s !! h) → kept s (rwatchDel E s h KNil all32).1.
Proof.
  intros Ht Hh Hs. destruct (rwatchDel_put P sepc w isvol E s h KNil all32 (re_plat _ _ _ _ _ HE) Ht Hh Hs) as (H1&_&Hp&_).
  split_and!.
  - eapply put_rinv; [exact H1|done|done| |].
    + apply wpd_wdel_nil. by eapply rinv_wp.
    + intros Hne. eapply rinv_rpath; [exact Ht|done|]. intros Hz. apply Hne. rewrite Hz, wdel_nil_wp. by rewrite bool_decide_true by apply delete_empty.
  - done.
  - intros q n Hq. unfold rureg. rewrite (put_wp _ _ _ _ q H1 Hh Hs Hq). destruct (decide (q = h)) as [->|]; [|done].
    unfold wget. by rewrite wdel_nil_get.
Qed.
Lemma walk_del_kept s h : rinv (st_tree s) → [] ∉ h → is_Some (st_tree s !! h) →
  kept s (nd_walk E (λ s h, ((rwatchDel E s h KNil all32).1, CNil)) s h).1.
Proof.
  intros Ht Hh Hs. destruct (walk_mark E (eo_ord _ (re_ok _ _ _ _ _ HE)) (λ s h, ((rwatchDel E s h KNil all32).1, CNil))
    (λ s h, rwatchDel_nodes0 s h all32) (kept s) (λ _ _, True) (λ _, True) (st_tree s) h) with (s := s) as (s'&Hw&HR&_&_); try done.
  - intros x h1 Hk Hsn [Hx (r&->&Hr)] _. cbn [fst snd]. split_and!; try done. eapply kept_trans; [exact Hk|].
    apply rwatchDel_kept; [apply Hk| |].
    + by intros [?|?]%elem_of_app.
    + by apply Hsn.
  - by eapply rinv_closed.
  - by rewrite Hw.
Qed.
Lemma rstop_kept s h : rinv (st_tree s) → [] ∉ h → is_Some (st_tree s !! h) → kept s (rstop_fn E KNil s h).1 ∧ (rstop_fn E KNil s h).2 ≠ CErr.
Proof.
  intros Ht Hh Hs. unfold rstop_fn. pose proof (rwatchDel_kept s h Ht Hh Hs) as K1. pose proof (rwatchDel_nodes0 s h all32) as N1.
  destruct (rwatchDel E s h KNil all32) as [s1 d]. cbn [fst] in *. destruct (is_none d && _); [done|].
  set (s2 := if is_none d then s1 else _).
  assert (st_tree s2 = st_tree s1 ∧ st_panic s2 = st_panic s1) as [H2 H3].
  { unfold s2. destruct (is_none d); [done|]. destruct (d.2 =? 0); by destruct (watchIsRecursive _ _ _). }
  assert (kept s s2) as K2. { destruct K1 as (A1&A2&A3). unfold kept. rewrite H2, H3. done. }
  cbn [fst snd]. split; [|done]. eapply kept_trans; [exact K2|]. apply walk_del_kept; [apply K2|done|]. rewrite H2. by apply N1.
Qed.
Lemma rec_StopNil_spec s : rinv (st_tree s) → kept s (rec_Stop E s KNil) ∧ same_nodes (st_tree s) (st_tree (rec_Stop E s KNil)).
Proof.
  intros Ht. unfold rec_Stop. destruct (walk_mark E (eo_ord _ (re_ok _ _ _ _ _ HE)) (rstop_fn E KNil) rstop_nodes0
    (kept s) (λ _ _, True) (λ _, True) (st_tree s) []) with (s := s) as (s'&Hw&HR&Hn&_); try done.
  - intros x h1 Hk Hsn [Hx (r&->&Hr)] _. rewrite app_nil_l in *. destruct (rstop_kept x r) as [A B]; [apply Hk|done|by apply Hsn|].
    split_and!; try done. by eapply kept_trans.
  - by eapply rinv_closed.
  - apply (twf_root _ _ _ (ri_wf _ _ _ _ _ Ht)).
  - by rewrite Hw.
Qed.
Lemma rec_StopNil_rgs s q n : rinv (st_tree s) → rgs (st_tree (rec_Stop E s KNil)) q n = rgs (st_tree s) q n.
Proof.
  intros Ht. destruct (rec_StopNil_spec s Ht) as [(_&_&H) _]. unfold rgs. destruct (decide ([] ∈ q)); [done|]. by apply H.
Qed.
End nil.
