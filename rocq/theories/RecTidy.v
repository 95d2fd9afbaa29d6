(** * RecTidy: the recursive tree and the OS watches along an orderly history *)
From Verif Require Import Base Event Watchpoint WatchpointFacts Paths PathsFacts Loop LoopFacts
  Node NodeFacts SpecTree WalkFacts RootFacts NonRec NonRecWp Rec SpecNonRec SpecOS SpecRec RecFacts RecReg RecStop RecDisp RecStep.
Local Open Scope N_scope.

Section tidy.
Context (P : platform) (HP : platform_ok P) (sepc : ascii) (w : bool) (isvol : str → Prop).
Notation nameof := (nameof sepc w).
Notation renv := (renv P sepc w isvol).
Notation rpath := (rpath sepc w isvol).
Notation wpd := (wpd P).
Notation rinv := (rinv P sepc w isvol).

(** ** Watchpoints *)
Record wpt (wp : watchpoint) : Prop := {
  wt_d : wpd wp;
  wt_agg : agg_ok P wp;
  wt_vis : ∀ n x, wp !! KUser n = Some x → x .&^ internal P ≠ 0;
}.
Lemma wpt_empty : wpt ∅.
Proof. split; [apply wpd_empty|apply agg_ok_empty|]. intros n x. by rewrite lookup_empty. Qed.
Lemma wpt_wadd wp n e : wpt wp → disj_ev e (omit P) → u32 e → e .&^ internal P ≠ 0 → wpt (wadd P wp (KUser n) e).1.
Proof.
  intros [H1 H2 H3] Ho Hu Hv. split; [by apply wpd_wadd|by apply agg_ok_wadd|].
  intros m x. rewrite wadd_get by done. case_bool_decide as Hm; [|by apply H3].
  intros [= <-] Hz. apply Hv. clear - Hz. bits.
Qed.
Lemma wpt_sdel wp n : wpt wp → wpt (sdel P n wp).
Proof.
  intros [H1 H2 H3]. split; [by apply wpd_wdel|by apply wdel_agg|].
  intros m x Hx. unfold sdel in Hx. rewrite wdel_get in Hx by done. case_bool_decide as Hm; [|by eapply H3].
  injection Hm as ->. rewrite (u32_all (wget wp (KUser n))) in Hx by (by eapply wpd_get_u32). done.
Qed.
Lemma has_wtotal wp i : wpt wp → has (wtotal P wp) i ↔ ∃ n, has (wget wp (KUser n)) i ∧ ¬ has (internal P) i.
Proof.
  intros [H1 H2 H3]. rewrite wtotal_total by done. unfold total. rewrite has_ldiff, has_others_get. split.
  - intros [(k&Hk&Hi) Hn]. destruct k as [| |n]; [done| |eauto].
    exfalso. unfold wget in Hi. rewrite (wd_rec _ _ H1) in Hi. by apply has_0 in Hi.
  - intros (n&Hi&Hn). split; [|done]. by exists (KUser n).
Qed.
Lemma wtotal_zero wp : wpt wp → wtotal P wp = 0 → wp = ∅.
Proof.
  intros Hw Hz. apply (agg_ok_ext P); [apply Hw|apply agg_ok_empty|]. intros k Hk. rewrite lookup_empty.
  destruct k as [| |n]; [done|apply Hw|]. destruct (wp !! KUser n) as [x|] eqn:Ex; [|done]. exfalso.
  apply (wt_vis _ Hw _ _ Ex). destruct (decide (x .&^ internal P = 0)) as [|Hne]; [done|].
  apply nonzero_bit in Hne as [i [H1 H2]%has_ldiff]. exfalso. apply (has_0 i). rewrite <-Hz.
  apply has_wtotal; [done|]. exists n. split; [|done]. unfold wget. by rewrite Ex.
Qed.
Lemma wtotal_empty : wtotal P ∅ = 0.
Proof. unfold wtotal, wget. rewrite lookup_empty. done. Qed.
Lemma wget_empty k : wget ∅ k = 0.
Proof. unfold wget. by rewrite lookup_empty. Qed.
Lemma wpt_users wp : wpt wp → (∀ n, wget wp (KUser n) = 0) → wp = ∅.
Proof.
  intros Hw H. apply wtotal_zero; [done|]. destruct (decide (wtotal P wp = 0)) as [|Hne]; [done|].
  apply nonzero_bit in Hne as [i (n&Hi&_)%has_wtotal]; [|done]. rewrite H in Hi. by apply has_0 in Hi.
Qed.
Lemma wpt_reg wp n i : wpt wp → has (wget wp (KUser n)) i → wtotal P wp ≠ 0.
Proof. intros Hw Hi Hz. apply wtotal_zero in Hz as ->; [|done]. rewrite wget_empty in Hi. by apply has_0 in Hi. Qed.
Lemma isRecursive_user wp n : wpt wp → wget wp (KUser n) .& recursive P ≠ 0 → isRecursive P wp = true.
Proof.
  intros Hw [i [H1 H2]%has_land]%nonzero_bit. unfold isRecursive.
  destruct (N.eqb_spec (wget wp KNil .& recursive P) 0) as [Hz|]; [|done]. exfalso. apply (has_0 i). rewrite <-Hz.
  apply has_land. split; [|done]. by apply (wpd_get P wp n (wt_d _ Hw)).
Qed.
Lemma isRecursive_true wp : wpt wp → isRecursive P wp = true → ∃ n, wget wp (KUser n) .& recursive P ≠ 0.
Proof.
  intros Hw. unfold isRecursive. destruct (N.eqb_spec (wget wp KNil .& recursive P) 0) as [Hz|Hne]; [done|]. intros _.
  apply nonzero_bit in Hne as [i [H1 H2]%has_land]. rewrite (agg_ok_get P) in H1 by apply Hw.
  apply has_ldiff in H1 as [(k&Hk&Hi)%has_others_get _]. destruct k as [| |n]; [done| |].
  - exfalso. unfold wget in Hi. rewrite (wd_rec _ _ (wt_d _ Hw)) in Hi. by apply has_0 in Hi.
  - exists n. apply nonzero_bit. exists i. by apply has_land.
Qed.
Lemma wtotal_int wp : disj_ev (wtotal P wp) (internal P).
Proof. unfold wtotal. clear. bits. Qed.

(** ** Differences *)
Lemma wadd_norm wp n e : (wadd P wp (KUser n) e).2 = norm (wtotal P wp) (wtotal P (wadd P wp (KUser n) e).1).
Proof.
  unfold wadd. cbn [fst snd]. unfold wtotal. rewrite wget_insert, wget_insert_ne by done.
  unfold strip_diff, norm.
  replace (((wget wp KNil .| e) .&^ omit P) .&^ internal P) with ((wget wp KNil .| e) .&^ internal P); [done|].
  unfold internal. clear. bits.
Qed.
Lemma wdel_norm wp n e : (wdel P wp (KUser n) e).2 = norm (wtotal P wp) (wtotal P (wdel P wp (KUser n) e).1).
Proof.
  unfold wdel. set (wp2 := if wget _ _ =? 0 then _ else _).
  assert (wget wp2 KNil = wget wp KNil) as Hn.
  { unfold wp2. destruct (wget _ _ =? 0); [rewrite wget_delete_ne by done|]; by rewrite wget_insert_ne by done. }
  case_bool_decide as Hz; cbn [fst snd]; rewrite Hn; unfold strip_diff, norm, wtotal.
  - rewrite Hz, wget_empty. done.
  - rewrite wget_insert. replace ((joinall (delete KNil wp2) .&^ omit P) .&^ internal P) with (joinall (delete KNil wp2) .&^ internal P); [done|].
    unfold internal. clear. bits.
Qed.

(** ** Nodes *)
Definition wt (t : tree) (h : path) : N := wtotal P (wp_at t h) .| wtotal P (wp_at t (inact h)).
Definition wrec (t : tree) (h : path) : Prop := isRecursive P (wp_at t h) = true ∨ wp_at t (inact h) ≠ ∅.
Lemma watchTotal_wt E t h : e_plat E = P → watchTotal E t h = wt t h.
Proof.
  intros HE. unfold watchTotal, wt. rewrite HE. destruct (Nat.eqb_spec (size (wp_at t (inact h))) 0) as [Hz|]; [|done].
  apply map_size_empty_inv in Hz as ->. by rewrite wtotal_empty, N.lor_0_r.
Qed.
Lemma watchIsRecursive_wrec E t h : e_plat E = P → watchIsRecursive E t h = true ↔ wrec t h.
Proof.
  intros HE. unfold watchIsRecursive, wrec. rewrite HE, orb_true_iff.
  destruct (Nat.eqb_spec (size (wp_at t (inact h))) 0) as [Hz|Hz].
  - apply map_size_empty_inv in Hz. simpl. naive_solver.
  - split; [|by auto]. intros _. right. intros K. apply Hz. by rewrite K, map_size_empty.
Qed.
Lemma wt_int t h : disj_ev (wt t h) (internal P).
Proof. unfold wt. pose proof (wtotal_int (wp_at t h)). pose proof (wtotal_int (wp_at t (inact h))). intros i [?|?]%has_lor ?; naive_solver. Qed.
Lemma norm_lor a b c : norm ((norm a b).1 .| c) ((norm a b).2 .| c) = norm (a .| c) (b .| c).
Proof.
  unfold norm at 2 3. destruct (N.eqb_spec a b) as [->|]; [|done]. unfold norm. by rewrite !N.eqb_refl.
Qed.

Section ops.
Context (E : env) (HE : renv E) (n : positive).
Notation c := (KUser n).

Lemma rwatchAdd_diff s h e :
  rinv (st_tree s) → [] ∉ h → is_Some (st_tree s !! h) →
  (rwatchAdd E s h c e).2 = norm (wt (st_tree s) h) (wt (st_tree (rwatchAdd E s h c e).1) h).
Proof.
  intros Ht Hh Hs.
  destruct (rwatchAdd_put P sepc w isvol E s h c e (re_plat _ _ _ _ _ HE) Ht Hh Hs) as (H1&_&_).
  assert (inact h ≠ h) as Hne by (intros K; by apply (inact_not_plain h h Hh)).
  unfold wt at 2. rewrite H1, !wp_at_set_wp, (decide_True (P := h = h ∧ _)), decide_False by naive_solver. clear H1.
  unfold rwatchAdd, node_wadd. rewrite (re_plat _ _ _ _ _ HE).
  pose proof (wadd_norm (wp_at (st_tree s) h) n e) as Hd.
  destruct (wadd P (wp_at (st_tree s) h) c e) as [wp d]. cbn [fst snd] in *. rewrite (rinv_some _ _ _ _ _ _ Ht Hh Hs). cbn [st_tree with_tree].
  rewrite !wp_at_set_wp, decide_False by naive_solver. unfold wt. subst d.
  destruct (Nat.eqb_spec (size (wp_at (st_tree s) (inact h))) 0) as [Hz|]; cbn [snd].
  - apply map_size_empty_inv in Hz as ->. by rewrite wtotal_empty, !N.lor_0_r.
  - apply norm_lor.
Qed.
Lemma addInactive_spec s h e :
  rinv (st_tree s) → [] ∉ h → is_Some (st_tree s !! h) →
  let s' := (watchAddInactive E s h c e).1 in
  rinv (st_tree s') ∧ st_panic s' = st_panic s ∧ st_log s' = st_log s ∧
  is_Some (st_tree s' !! inact h ≫= nwatch) ∧
  (∀ q, [] ∉ q → st_tree s' !! q = st_tree s !! q) ∧
  (∀ q, wp_at (st_tree s') q = if decide (q = inact h) then (wadd P (wp_at (st_tree s) (inact h)) c e).1 else wp_at (st_tree s) q) ∧
  (watchAddInactive E s h c e).2 = norm (wt (st_tree s) h) (wt (st_tree s') h).
Proof.
  intros Ht Hh Hs. cbv zeta. pose proof (quiet_addInactive E s h c e Hs) as Hq.
  assert (inact h ≠ h) as Hne by (intros K; by apply (inact_not_plain h h Hh)).
  assert (rinv (st_tree (watchAddInactive E s h c e).1)) as Hi by (by eapply quiet_rinv).
  assert (∀ q, [] ∉ q → st_tree (watchAddInactive E s h c e).1 !! q = st_tree s !! q) as Hp by (intros q; apply (q_plain _ _ Hq)).
  enough (st_panic (watchAddInactive E s h c e).1 = st_panic s ∧ st_log (watchAddInactive E s h c e).1 = st_log s ∧
    is_Some (st_tree (watchAddInactive E s h c e).1 !! inact h ≫= nwatch) ∧
    (∀ q, wp_at (st_tree (watchAddInactive E s h c e).1) q = if decide (q = inact h) then (wadd P (wp_at (st_tree s) (inact h)) c e).1 else wp_at (st_tree s) q) ∧
    (watchAddInactive E s h c e).2 = norm (wt (st_tree s) h) (wt (st_tree (watchAddInactive E s h c e).1) h)) as (K1&K2&K3&K4&K5) by (by split_and!).
  clear Hi Hp Hq. unfold watchAddInactive.
  set (s1 := match st_tree s !! inact h ≫= nwatch with Some _ => s | None => _ end).
  assert (st_panic s1 = st_panic s ∧ st_log s1 = st_log s ∧ is_Some (st_tree s1 !! inact h ≫= nwatch) ∧
    (∀ q, wp_at (st_tree s1) q = wp_at (st_tree s) q)) as (K1&K2&[wi Hwi]&K3).
  { unfold s1. destruct (st_tree s !! inact h ≫= nwatch) eqn:Ei; [by split_and!|]. cbn [with_tree st_tree st_panic st_log].
    split_and!; try done.
    - rewrite lookup_insert. cbn. eauto.
    - intros q. unfold wp_at. destruct (decide (q = inact h)) as [->|Hqi].
      + rewrite lookup_insert. destruct (st_tree s !! inact h) as [nd|]; [|done]. cbn in Ei |- *. by rewrite Ei.
      + by rewrite lookup_insert_ne. }
  clearbody s1. unfold node_wadd. rewrite (re_plat _ _ _ _ _ HE).
  pose proof (wadd_norm (wp_at (st_tree s1) (inact h)) n e) as Hd. rewrite K3 in Hd |- *.
  destruct (wadd P (wp_at (st_tree s) (inact h)) c e) as [wp d]. cbn [fst snd] in Hd |- *. rewrite Hwi.
  cbn [fst snd with_tree st_tree st_panic st_log].
  assert (is_Some (st_tree s1 !! inact h)) as Hs1 by (destruct (st_tree s1 !! inact h); [eauto|done]).
  assert (∀ q, wp_at (set_wp (st_tree s1) (inact h) wp) q = if decide (q = inact h) then wp else wp_at (st_tree s) q) as Hw.
  { intros q. rewrite wp_at_set_wp. destruct (decide (q = inact h)) as [->|Hqi].
    - by rewrite decide_True.
    - rewrite decide_False by naive_solver. apply K3. }
  split_and!; try done.
  - rewrite lookup_set_wp, decide_True by done. destruct (st_tree s1 !! inact h); [|by destruct Hs1]. cbn. eauto.
  - rewrite Hd. unfold wt. rewrite !Hw, decide_False, decide_True by done. rewrite norm_lor. f_equal; apply N.lor_comm.
Qed.
Lemma rwatchDel_diff s h :
  rinv (st_tree s) → [] ∉ h → is_Some (st_tree s !! h) →
  let T := wtotal P (wp_at (st_tree s) h) in let I := wtotal P (wp_at (st_tree s) (inact h)) in
  let T' := wtotal P (sdel P n (wp_at (st_tree s) h)) in let I' := wtotal P (sdel P n (wp_at (st_tree s) (inact h))) in
  incl_ev I' I → I = I' ∨ T ≠ T' ∨ incl_ev T I' →
  (rwatchDel E s h c all32).2 = norm (wt (st_tree s) h) (wt (st_tree (rwatchDel E s h c all32).1) h).
Proof.
  intros Ht Hh Hs. cbv zeta.
  assert (inact h ≠ h) as Hne by (intros K; by apply (inact_not_plain h h Hh)).
  destruct (rwatchDel_wp P sepc w isvol E HE n s h Ht Hh Hs) as (_&_&_&H1).
  unfold wt. rewrite !H1, !decide_True by auto. clear H1.
  unfold rwatchDel, node_wdel. rewrite (re_plat _ _ _ _ _ HE).
  assert (∀ wp, (wdel P wp c all32).2 = norm (wtotal P wp) (wtotal P (sdel P n wp)) ∧ (wdel P wp c all32).1 = sdel P n wp) as Hd.
  { intros wp. split; [apply wdel_norm|done]. }
  destruct (Hd (wp_at (st_tree s) h)) as [D1 D2]. destruct (wdel P (wp_at (st_tree s) h) c all32) as [wp d].
  cbn [fst snd] in D1, D2. subst wp d. rewrite (rinv_some _ _ _ _ _ _ Ht Hh Hs). cbn [st_tree with_tree].
  rewrite !wp_at_set_wp, (decide_False (P := inact h = h ∧ _)) by naive_solver.
  set (T := wtotal P (wp_at (st_tree s) h)). set (T' := wtotal P (sdel P n (wp_at (st_tree s) h))).
  destruct (Nat.eqb_spec (size (wp_at (st_tree s) (inact h))) 0) as [Hz|Hz].
  { apply map_size_empty_inv in Hz as ->. intros _ _. cbn [snd]. by rewrite sdel_empty, wtotal_empty, !N.lor_0_r. }
  destruct (Hd (wp_at (st_tree s) (inact h))) as [D1 D2]. destruct (wdel P (wp_at (st_tree s) (inact h)) c all32) as [wp d].
  cbn [fst snd] in D1, D2. subst wp d.
  assert (st_tree s !! inact h ≫= nwatch = Some (wp_at (st_tree s) (inact h))) as Hwi.
  { unfold wp_at in Hz |- *. destruct (st_tree s !! inact h) as [nd|]; simpl; [|by rewrite map_size_empty in Hz].
    destruct (nwatch nd); simpl in *; [done|]. by rewrite map_size_empty in Hz. }
  set (I := wtotal P (wp_at (st_tree s) (inact h))). set (I' := wtotal P (sdel P n (wp_at (st_tree s) (inact h)))).
  intros Hii Hcase.
  assert (norm ((norm T T').1 .| ((norm I I').1 .| I')) ((norm T T').2 .| ((norm I I').2 .| I')) = norm (T .| I) (T' .| I')) as Hfin.
  { clear - Hii Hcase. clearbody T T' I I'. assert (I .| I' = I) as HI by (clear - Hii; bits).
    unfold norm at 2 3 4 5. destruct (N.eqb_spec T T') as [Ht'|Ht'].
    - rewrite <-Ht'. destruct (N.eqb_spec I I') as [Hi'|Hi'].
      + rewrite <-Hi'. unfold norm. by rewrite !N.eqb_refl.
      + destruct Hcase as [?|[?|Hsub]]; [done|done|]. cbn [fst snd none].
        assert (incl_ev T I) as Hsub' by (clear - Hsub Hii; bits). f_equal; clear - Hsub Hsub' Hii; bits.
    - destruct (N.eqb_spec I I') as [Hi'|Hi']; cbn [fst snd none].
      + rewrite <-Hi'. f_equal; clear; bits.
      + f_equal; clear - Hii; bits. }
  destruct (set_wp (st_tree s) h (sdel P n (wp_at (st_tree s) h)) !! inact h ≫= nwatch) as [wi|] eqn:Ewi.
  2:{ rewrite lookup_set_wp, decide_False in Ewi by done. congruence. }
  cbn [snd st_tree with_tree]. rewrite !wp_at_set_wp, decide_True.
  2:{ split; [done|]. apply set_wp_is_Some. destruct (st_tree s !! inact h); [eauto|done]. }
  exact Hfin.
Qed.
End ops.
End tidy.
