(** * RecFacts: invariants of the recursive tree and the effect of its operations
    on the registrations *)
From Verif Require Import Base Event Watchpoint WatchpointFacts Paths PathsFacts Loop LoopFacts
  Node NodeFacts SpecTree WalkFacts RootFacts NonRec NonRecWp Rec SpecNonRec SpecRec.
Local Open Scope N_scope.

Section rec.
Context (P : platform) (sepc : ascii) (w : bool) (isvol : str → Prop).
Notation nameof := (nameof sepc w).
Notation renv := (renv P sepc w isvol).
Notation rpath := (rpath sepc w isvol).

(** ** Watchpoints *)
Record wpd (wp : watchpoint) : Prop := {
  wd_rec : wp !! KRec = None;
  wd_omit : ∀ n x, wp !! KUser n = Some x → disj_ev x (omit P);
  wd_u32 : ∀ n x, wp !! KUser n = Some x → u32 x;
  wd_agg : ∀ n x, wp !! KUser n = Some x → incl_ev x (wget wp KNil);
  wd_nil : disj_ev (wget wp KNil) (omit P);
}.
Lemma wpd_empty : wpd ∅.
Proof. split; try by intros; rewrite lookup_empty in *. - unfold wget. rewrite lookup_empty. simpl. clear. bits. Qed.
Lemma wadd_nil wp c e : c ≠ KNil → wget (wadd P wp c e).1 KNil = (wget wp KNil .| e) .&^ omit P.
Proof. intros Hc. unfold wadd. cbn [fst]. rewrite wget_insert. by rewrite wget_insert_ne. Qed.
Lemma wpd_wadd wp n e : wpd wp → disj_ev e (omit P) → u32 e → wpd (wadd P wp (KUser n) e).1.
Proof.
  intros [H1 H2 H3 H4 H5] Ho Hu.
  assert (∀ m x, (wadd P wp (KUser n) e).1 !! KUser m = Some x →
    (∃ y, wp !! KUser m = Some y ∧ (x = y ∨ x = y .| e)) ∨ x = 0 .| e) as Hx.
  { intros m x. rewrite wadd_get by done. case_bool_decide as Hm; [|naive_solver].
    injection Hm as ->. unfold wget. destruct (wp !! KUser n) as [y|] eqn:Ey; intros [= <-]; [left; naive_solver|right; done]. }
  split.
  - rewrite wadd_get by done. by rewrite bool_decide_false.
  - intros m x [(y&Hy&[->| ->])| ->]%Hx; try specialize (H2 _ _ Hy); clear - H2 Ho; bits.
  - intros m x [(y&Hy&[->| ->])| ->]%Hx; [eauto|apply u32_lor; eauto|by rewrite N.lor_0_l].
  - intros m x Hm. rewrite wadd_nil by done.
    apply Hx in Hm as [(y&Hy&[->| ->])| ->]; try pose proof (H2 _ _ Hy) as K2; try specialize (H4 _ _ Hy).
    + clear - H4 K2. bits.
    + clear - H4 K2 Ho. bits.
    + clear - Ho. bits.
  - rewrite wadd_nil by done. clear. bits.
Qed.
Lemma others_user wp : wp !! KRec = None → (∀ n x, wp !! KUser n = Some x → disj_ev x (omit P)) → disj_ev (others wp) (omit P).
Proof.
  intros H1 H2 i Hi Ho. apply has_others in Hi as (k&x&Hk&Hl&Hx). destruct k; [done|congruence|].
  by apply (H2 _ _ Hl i).
Qed.
Lemma wpd_agg_ok wp :
  wp !! KRec = None → (∀ n x, wp !! KUser n = Some x → disj_ev x (omit P)) →
  (∀ n x, wp !! KUser n = Some x → u32 x) → agg_ok P wp → wpd wp.
Proof.
  intros H1 H2 H3 H4. pose proof (others_user wp H1 H2) as Ho. split; try done.
  - intros n x Hn. rewrite (agg_ok_get P) by done. pose proof (H2 _ _ Hn) as K.
    assert (incl_ev x (others wp)) as Hi.
    { intros i Hi. apply has_others. by exists (KUser n), x. }
    clear - Hi K. bits.
  - rewrite (agg_ok_get P) by done. clear. bits.
Qed.
Lemma wpd_wdel wp n e : wpd wp → wpd (wdel P wp (KUser n) e).1.
Proof.
  intros [H1 H2 H3 H4 H5].
  assert (∀ m x, (wdel P wp (KUser n) e).1 !! KUser m = Some x → ∃ y, wp !! KUser m = Some y ∧ (x = y ∨ x = y .&^ e)) as Hx.
  { intros m x. rewrite wdel_get by done. case_bool_decide as Hm; [|naive_solver].
    injection Hm as ->. unfold wget. destruct (wp !! KUser n) as [y|] eqn:Ey; simpl.
    - destruct (y .&^ e =? 0); [done|]. intros [= <-]. eauto.
    - done. }
  apply wpd_agg_ok.
  - rewrite wdel_get by done. by rewrite bool_decide_false.
  - intros m x (y&Hy&[->| ->])%Hx; specialize (H2 _ _ Hy); [done|]. clear - H2. bits.
  - intros m x (y&Hy&[->| ->])%Hx; specialize (H3 _ _ Hy); [done|]. by apply u32_ldiff.
  - by apply wdel_agg.
Qed.
Lemma wpd_delete wp n : wpd wp → wpd (delete (KUser n) wp).
Proof.
  intros [H1 H2 H3 H4 H5].
  assert (∀ m x, delete (KUser n) wp !! KUser m = Some x → wp !! KUser m = Some x) as Hx.
  { intros m x [_ ?]%lookup_delete_Some. done. }
  split.
  - by rewrite lookup_delete_ne.
  - eauto.
  - eauto.
  - intros m x Hm. rewrite wget_delete_ne by done. eauto.
  - by rewrite wget_delete_ne.
Qed.
Lemma wpd_get wp n : wpd wp → incl_ev (wget wp (KUser n)) (wget wp KNil).
Proof.
  intros H i. unfold wget at 1. destruct (wp !! KUser n) as [x|] eqn:Ex; simpl.
  - by apply (wd_agg _ H n x).
  - intros K. by apply has_0 in K.
Qed.
Lemma wpd_get_u32 wp n : wpd wp → u32 (wget wp (KUser n)).
Proof.
  intros H. unfold wget. destruct (wp !! KUser n) as [x|] eqn:Ex; simpl; [|apply u32_0]. by apply (wd_u32 _ H n x).
Qed.
Lemma wpd_get_omit wp n : wpd wp → disj_ev (wget wp (KUser n)) (omit P).
Proof.
  intros H. unfold wget. destruct (wp !! KUser n) as [x|] eqn:Ex; simpl; [|clear; bits]. by apply (wd_omit _ H n x).
Qed.

(** ** Trees *)
Record rinv (t : tree) : Prop := {
  ri_wf : tree_wf sepc w t;
  ri_node : ∀ p nd, t !! p = Some nd → [] ∉ p → ∃ wp, nwatch nd = Some wp ∧ wpd wp ∧ (wp ≠ ∅ → rpath p);
}.
Definition rureg (t : tree) (p : path) (n : positive) : N := wget (wp_at t p) (KUser n).
(** The two trees agree except on inactive watchpoints. *)
Definition same_plain (t t' : tree) : Prop := ∀ p, [] ∉ p → t' !! p = t !! p.

Lemma rinv_wp t p : rinv t → [] ∉ p → wpd (wp_at t p).
Proof.
  intros Ht Hp. unfold wp_at. destruct (t !! p) as [nd|] eqn:E; [|apply wpd_empty].
  by destruct (ri_node _ Ht _ _ E Hp) as (wp&->&?&_).
Qed.
Lemma rinv_rpath t p : rinv t → [] ∉ p → wp_at t p ≠ ∅ → rpath p.
Proof.
  intros Ht Hp. unfold wp_at. destruct (t !! p) as [nd|] eqn:E; [|done].
  destruct (ri_node _ Ht _ _ E Hp) as (wp&->&_&?). done.
Qed.
Lemma rinv_closed t : rinv t → closed t.
Proof. intros Ht. exact (twf_closed _ _ _ (ri_wf _ Ht)). Qed.
Lemma rinv_some t p : rinv t → [] ∉ p → is_Some (t !! p) → t !! p ≫= nwatch = Some (wp_at t p).
Proof.
  intros Ht Hp [nd E]. unfold wp_at. rewrite E. simpl. by destruct (ri_node _ Ht _ _ E Hp) as (wp&->&_).
Qed.
Lemma rinv_name t p : rinv t → [] ∉ p → is_Some (t !! p) → name_at t p = nameof p.
Proof. intros Ht Hp Hs. by rewrite (name_at_wf sepc w) by (done || apply Ht). Qed.
Lemma rinv_init : rinv (st_tree init_st).
Proof.
  split; [split|]; simpl.
  - by rewrite lookup_singleton.
  - intros p k. destruct p; rewrite lookup_singleton_ne by done; by intros [].
  - intros p nd [<- <-]%lookup_singleton_Some _. unfold SpecTree.nameof. by destruct w.
  - intros p nd [<- <-]%lookup_singleton_Some _. exists ∅. split_and!; [done|apply wpd_empty|done].
Qed.
Lemma rinv_same t t' : rinv t → same_plain t t' → closed t' → rinv t'.
Proof.
  intros [[Hr Hc Hn] Hw] Hs Hc'. split; [split|].
  - rewrite Hs; [done|]. by intros ?%elem_of_nil.
  - exact Hc'.
  - intros p nd Hp Hne. rewrite Hs in Hp by done. by apply Hn.
  - intros p nd Hp Hne. rewrite Hs in Hp by done. by apply Hw.
Qed.
Lemma rinv_set_wp t h wp : rinv t → [] ∉ h → wpd wp → (wp ≠ ∅ → rpath h) → rinv (set_wp t h wp).
Proof.
  intros [[Hr Hc Hn] Hw] Hh Hwp Hrp. split; [split|].
  - by apply set_wp_is_Some.
  - intros p k. rewrite !set_wp_is_Some. apply Hc.
  - intros p nd. rewrite lookup_set_wp. case_decide as E; [|apply Hn].
    subst p. destruct (t !! h) as [nd'|] eqn:E; [|done]. intros [= <-]. simpl. by apply Hn.
  - intros p nd. rewrite lookup_set_wp. case_decide as E; [|apply Hw].
    subst p. destruct (t !! h) as [nd'|] eqn:E; [|done]. intros [= <-] _. simpl. eauto.
Qed.
Lemma same_plain_refl t : same_plain t t.
Proof. by intros p. Qed.
Lemma same_plain_trans t t' t'' : same_plain t t' → same_plain t' t'' → same_plain t t''.
Proof. intros H H' p Hp. rewrite H', H; done. Qed.
Lemma inact_not_plain h p : [] ∉ p → p ≠ inact h.
Proof. intros Hp ->. apply Hp. unfold inact. set_solver. Qed.
Lemma same_plain_set_inact t h wp : same_plain t (set_wp t (inact h) wp).
Proof. intros p Hp. rewrite lookup_set_wp. rewrite decide_False; [done|]. by apply inact_not_plain. Qed.
Lemma same_plain_ins_inact t h nd : same_plain t (<[inact h := nd]> t).
Proof. intros p Hp. rewrite lookup_insert_ne; [done|]. intros <-. by apply (inact_not_plain h (inact h) Hp). Qed.
Lemma closed_ins_inact t h nd : closed t → is_Some (t !! h) → closed (<[inact h := nd]> t).
Proof.
  intros Hc Hh p k. unfold inact. destruct (decide (p = h ++ [[]])) as [->|Hp].
  { intros _. rewrite lookup_insert. eauto. }
  rewrite (lookup_insert_ne _ _ p) by done.
  destruct (decide (p ++ [k] = h ++ [[]])) as [E|E].
  - apply app_inj_tail in E as [-> ->]. done.
  - rewrite lookup_insert_ne by done. apply Hc.
Qed.
Lemma closed_set_wp t h wp : closed t → closed (set_wp t h wp).
Proof. intros Hc p k. rewrite !set_wp_is_Some. apply Hc. Qed.
Lemma same_plain_some t t' p : same_plain t t' → [] ∉ p → is_Some (t !! p) → is_Some (t' !! p).
Proof. intros H Hp. by rewrite H. Qed.
Lemma same_plain_wp t t' p : same_plain t t' → [] ∉ p → wp_at t' p = wp_at t p.
Proof. intros H Hp. unfold wp_at. by rewrite H. Qed.

(** ** Steps that leave plain nodes alone *)
(** [s'] differs from [s] at most in inactive watchpoints, the iteration counter, the log and the panic flag. *)
Record quiet (s s' : st) : Prop := {
  q_plain : same_plain (st_tree s) (st_tree s');
  q_closed : closed (st_tree s) → closed (st_tree s');
}.
Lemma quiet_refl s : quiet s s.
Proof. split; [apply same_plain_refl|done]. Qed.
Lemma quiet_trans s s' s'' : quiet s s' → quiet s' s'' → quiet s s''.
Proof. intros [H1 H2] [H1' H2']. split; [by eapply same_plain_trans|auto]. Qed.
Lemma quiet_tree s s' : st_tree s' = st_tree s → quiet s s'.
Proof. intros H. split; rewrite H; [apply same_plain_refl|done]. Qed.
Lemma quiet_rinv s s' : quiet s s' → rinv (st_tree s) → rinv (st_tree s').
Proof. intros [H1 H2] H. eapply rinv_same; [exact H|exact H1|]. apply H2. by apply rinv_closed. Qed.
Lemma quiet_call E s c s' ok : wcallf E s c = (s', ok) → quiet s s'.
Proof. intros [= <- _]. by apply quiet_tree. Qed.

Lemma quiet_add_inact E s h c e : quiet s (node_wadd E s (inact h) c e).1.
Proof.
  unfold node_wadd. destruct (wadd (e_plat E) (wp_at (st_tree s) (inact h)) c e) as [wp d].
  destruct (st_tree s !! inact h ≫= nwatch); simpl; (split; [apply same_plain_set_inact|apply closed_set_wp]).
Qed.
Lemma quiet_addInactive E s h c e : is_Some (st_tree s !! h) → quiet s (watchAddInactive E s h c e).1.
Proof.
  intros Hh. unfold watchAddInactive.
  set (s1 := match st_tree s !! inact h ≫= nwatch with Some _ => s | None => _ end).
  assert (quiet s s1) as Hq.
  { unfold s1. destruct (st_tree s !! inact h ≫= nwatch); [apply quiet_refl|]. split; simpl.
    - apply same_plain_ins_inact.
    - intros Hc. by apply closed_ins_inact. }
  pose proof (quiet_add_inact E s1 h c e) as Hq2. destruct (node_wadd E s1 (inact h) c e) as [s2 d]. cbn [fst] in *.
  by eapply quiet_trans.
Qed.
Lemma quiet_copy E s src dst : [] ∉ dst → is_Some (st_tree s !! dst) → quiet s (watchCopy E s src dst).
Proof.
  intros Hd Hs. unfold watchCopy.
  set (l1 := e_word E _ _). 
  assert (∀ l s0, is_Some (st_tree s0 !! dst) → quiet s0 (foldl (λ s '(c, e), if decide (c = KNil) then s else (watchAddInactive E s dst c e).1) s0 l)) as H1.
  { induction l as [|[c e] l IH]; intros s0 Hs0; [apply quiet_refl|]. cbn [foldl].
    destruct (decide (c = KNil)); [by apply IH|].
    eapply quiet_trans; [by apply quiet_addInactive|]. apply IH.
    apply (same_plain_some (st_tree s0)); [|done|done]. by apply q_plain, quiet_addInactive. }
  assert (∀ l s0, quiet s0 (foldl (λ s '(c, e), if decide (c = KNil) then s else (node_wadd E s (inact dst) c e).1) s0 l)) as H2.
  { induction l as [|[c e] l IH]; intros s0; [apply quiet_refl|]. cbn [foldl].
    destruct (decide (c = KNil)); [by apply IH|].
    eapply quiet_trans; [by apply quiet_add_inact|]. apply IH. }
  set (s1 := foldl _ (ticked s) l1). cbv zeta. eapply quiet_trans; [|apply H2].
  apply (quiet_trans _ s1); [|by apply quiet_tree]. eapply quiet_trans; [|by apply H1]. by apply quiet_tree.
Qed.

(** ** Adding to and deleting from the watchpoint of a plain node *)
(** [s'] differs from [s] in that the watchpoint of [h] is now [wp]. *)
Definition put (s : st) (h : path) (wp : watchpoint) (s' : st) : Prop :=
  ∃ s1, quiet s s1 ∧ st_tree s' = set_wp (st_tree s1) h wp.
Lemma put_rinv s h wp s' :
  put s h wp s' → rinv (st_tree s) → [] ∉ h → wpd wp → (wp ≠ ∅ → rpath h) → rinv (st_tree s').
Proof.
  intros (s1&Hq&->) Ht Hh Hwp Hr. apply rinv_set_wp; [|done..]. by eapply quiet_rinv.
Qed.
Lemma put_wp s h wp s' p :
  put s h wp s' → [] ∉ h → is_Some (st_tree s !! h) → [] ∉ p →
  wp_at (st_tree s') p = if decide (p = h) then wp else wp_at (st_tree s) p.
Proof.
  intros (s1&Hq&->) Hh Hs Hp. rewrite wp_at_set_wp.
  destruct (decide (p = h)) as [->|Hne].
  - rewrite decide_True; [done|]. split; [done|]. rewrite (q_plain _ _ Hq) by done. done.
  - rewrite decide_False by naive_solver. by apply same_plain_wp; [apply Hq|].
Qed.
Lemma put_some s h wp s' p : put s h wp s' → [] ∉ p → is_Some (st_tree s' !! p) ↔ is_Some (st_tree s !! p).
Proof. intros (s1&Hq&->) Hp. rewrite set_wp_is_Some. by rewrite (q_plain _ _ Hq). Qed.
Lemma put_quiet_l s s1 h wp s' : quiet s s1 → put s1 h wp s' → put s h wp s'.
Proof. intros Hq (s2&Hq2&H). exists s2. split; [|done]. by eapply quiet_trans. Qed.
Lemma put_tree s h wp s' s'' : put s h wp s' → st_tree s'' = st_tree s' → put s h wp s''.
Proof. intros (s1&?&H) He. exists s1. by rewrite He. Qed.

Lemma rwatchAdd_put E s h c e :
  e_plat E = P → rinv (st_tree s) → [] ∉ h → is_Some (st_tree s !! h) →
  st_tree (rwatchAdd E s h c e).1 = set_wp (st_tree s) h (wadd P (wp_at (st_tree s) h) c e).1 ∧
  st_panic (rwatchAdd E s h c e).1 = st_panic s ∧ st_log (rwatchAdd E s h c e).1 = st_log s.
Proof.
  intros HE Ht Hh Hs. unfold rwatchAdd, node_wadd. rewrite HE.
  destruct (wadd P (wp_at (st_tree s) h) c e) as [wp d]. rewrite (rinv_some _ _ Ht Hh Hs).
  cbn [fst]. by destruct (size _ =? 0)%nat.
Qed.
Lemma rwatchDel_put E s h c e :
  e_plat E = P → rinv (st_tree s) → [] ∉ h → is_Some (st_tree s !! h) →
  put s h (wdel P (wp_at (st_tree s) h) c e).1 (rwatchDel E s h c e).1 ∧
  same_nodes (st_tree s) (st_tree (rwatchDel E s h c e).1) ∧
  st_panic (rwatchDel E s h c e).1 = st_panic s ∧ st_log (rwatchDel E s h c e).1 = st_log s.
Proof.
  intros HE Ht Hh Hs. unfold rwatchDel, node_wdel. rewrite HE.
  destruct (wdel P (wp_at (st_tree s) h) c e) as [wp d]. rewrite (rinv_some _ _ Ht Hh Hs).
  cbn [fst]. set (s1 := with_tree s (set_wp (st_tree s) h wp)).
  destruct (Nat.eqb_spec (size (wp_at (st_tree s1) (inact h))) 0) as [Hz|Hz].
  { split_and!; try done; [|by apply same_nodes_set_wp]. exists s. split; [apply quiet_refl|done]. }
  destruct (wdel P (wp_at (st_tree s1) (inact h)) c e) as [wp' d'].
  assert (∃ wi, st_tree s1 !! inact h ≫= nwatch = Some wi) as [wi Hwi].
  { unfold wp_at in Hz. destruct (st_tree s1 !! inact h) as [nd|]; simpl; [|by rewrite map_size_empty in Hz].
    destruct (nwatch nd); simpl in *; [eauto|]. by rewrite map_size_empty in Hz. }
  rewrite Hwi. cbn [fst]. split_and!; try done.
  - assert (h ≠ inact h) as Hne.
    { intros E0. apply (inact_not_plain h h Hh E0). }
    exists (with_tree s (set_wp (st_tree s) (inact h) wp')). split.
    + split; simpl; [apply same_plain_set_inact|apply closed_set_wp].
    + simpl. apply map_eq. intros p. rewrite !lookup_set_wp.
      destruct (decide (p = inact h)) as [->|Hp].
      * by rewrite !(decide_False (P := inact h = h)) by done.
      * by rewrite ?(decide_False (P := p = inact h)), ?(decide_False (P := h = inact h)) by done.
  - simpl. eapply same_nodes_trans; [apply same_nodes_set_wp|apply same_nodes_set_wp].
Qed.
Lemma rureg_wadd wp n e m : wget (wadd P wp (KUser n) e).1 (KUser m) = if decide (m = n) then wget wp (KUser n) .| e else wget wp (KUser m).
Proof.
  rewrite wadd_wget by done. case_bool_decide as H; case_decide as H'; try done; [by injection H|congruence].
Qed.
Lemma rureg_wdel wp n e m : wget (wdel P wp (KUser n) e).1 (KUser m) = if decide (m = n) then wget wp (KUser n) .&^ e else wget wp (KUser m).
Proof.
  rewrite wdel_wget by done. case_bool_decide as H; case_decide as H'; try done; [by injection H|congruence].
Qed.
End rec.
