(** * RecCopy: copying watchpoints upwards and collecting the watched nodes below a node *)
From Verif Require Import Base Event Watchpoint WatchpointFacts Paths PathsFacts Loop LoopFacts
  Node NodeFacts SpecTree WalkFacts RootFacts NonRec NonRecWp Rec SpecNonRec SpecOS SpecRec RecFacts RecReg RecStop RecDisp RecStep RecTidy.
Local Open Scope N_scope.

Section copy.
Context (P : platform) (HP : platform_ok P) (sepc : ascii) (w : bool) (isvol : str → Prop).
Notation nameof := (nameof sepc w).
Notation renv := (renv P sepc w isvol).
Notation rpath := (rpath sepc w isvol).
Notation rinv := (rinv P sepc w isvol).
Notation wpt := (wpt P).

Definition good (e : N) : Prop := disj_ev e (omit P) ∧ u32 e ∧ e .&^ internal P ≠ 0.
Definition goods (l : list (key * N)) : Prop := ∀ k x, (k, x) ∈ l → k = KNil ∨ ∃ m, k = KUser m ∧ good x.
Lemma wpt_goods wp l : wpt wp → l ≡ₚ map_to_list wp → goods l.
Proof.
  intros Hw Hl k x Hx. rewrite Hl in Hx. apply elem_of_map_to_list in Hx. destruct k as [| |m]; [by left| |right].
  - by rewrite (wd_rec _ _ (wt_d _ _ Hw)) in Hx.
  - exists m. split; [done|]. split_and!.
    + by apply (wd_omit _ _ (wt_d _ _ Hw) m).
    + by apply (wd_u32 _ _ (wt_d _ _ Hw) m).
    + by apply (wt_vis _ _ Hw m).
Qed.
Lemma wget_list wp l m i : l ≡ₚ map_to_list wp → has (wget wp (KUser m)) i ↔ ∃ x, (KUser m, x) ∈ l ∧ has x i.
Proof.
  intros Hl. rewrite has_wget. apply exist_proper. intros x. by rewrite Hl, elem_of_map_to_list.
Qed.

Section ops.
Context (E : env) (HE : renv E) (dst : path) (Hd : [] ∉ dst).
(** [s'] is [s] after the entries [l] were added to the inactive watchpoint of [dst]. *)
Record copied (s : st) (l : list (key * N)) (s' : st) : Prop := {
  cp_inv : rinv (st_tree s');
  cp_panic : st_panic s' = st_panic s;
  cp_log : st_log s' = st_log s;
  cp_plain : ∀ q, [] ∉ q → st_tree s' !! q = st_tree s !! q;
  cp_other : ∀ q, q ≠ inact dst → wp_at (st_tree s') q = wp_at (st_tree s) q;
  cp_wpt : wpt (wp_at (st_tree s') (inact dst));
  cp_node : is_Some (st_tree s !! inact dst ≫= nwatch) ∨ (∃ m x, (KUser m, x) ∈ l) → is_Some (st_tree s' !! inact dst ≫= nwatch);
  cp_get : ∀ m i, has (wget (wp_at (st_tree s') (inact dst)) (KUser m)) i ↔
    has (wget (wp_at (st_tree s) (inact dst)) (KUser m)) i ∨ ∃ x, (KUser m, x) ∈ l ∧ has x i;
}.
Lemma copied_nil s : rinv (st_tree s) → wpt (wp_at (st_tree s) (inact dst)) → copied s [] s.
Proof.
  intros H1 H2. split; try done.
  - intros [?|(m&x&K)]; [done|]. by apply elem_of_nil in K.
  - intros m i. split; [by left|]. intros [?|(x&K&_)]; [done|]. by apply elem_of_nil in K.
Qed.
Lemma copied_app s l s' l' s'' : copied s l s' → copied s' l' s'' → copied s (l ++ l') s''.
Proof.
  intros [A1 A2 A3 A4 A5 A6 A7 A8] [B1 B2 B3 B4 B5 B6 B7 B8]. split; try done.
  - congruence.
  - congruence.
  - intros q Hq. rewrite B4 by done. by apply A4.
  - intros q Hq. rewrite B5 by done. by apply A5.
  - intros [?|(m&x&[?|?]%elem_of_app)]; apply B7; [left|left|right]; eauto.
  - intros m i. rewrite B8, A8. split.
    + intros [[?|(x&?&?)]|(x&?&?)]; [by left|right; exists x..]; (split; [apply elem_of_app; auto|done]).
    + intros [?|(x&[?|?]%elem_of_app&?)]; eauto.
Qed.
Lemma copied_tick s l s' : copied s l s' → copied s l (ticked s').
Proof. intros [A1 A2 A3 A4 A5 A6 A7 A8]. by split. Qed.
Lemma copied_tick_l s l s' : copied (ticked s) l s' → copied s l s'.
Proof. intros [A1 A2 A3 A4 A5 A6 A7 A8]. by split. Qed.
Lemma copied_add s m x :
  rinv (st_tree s) → is_Some (st_tree s !! dst) → wpt (wp_at (st_tree s) (inact dst)) → good x →
  copied s [(KUser m, x)] (watchAddInactive E s dst (KUser m) x).1.
Proof.
  intros Ht Hs Hw (G1&G2&G3). destruct (addInactive_spec P sepc w isvol E HE m s dst x Ht Hd Hs) as (K1&K2&K3&K4&K5&K6&_).
  split; try done.
  - intros q Hq. by rewrite K6, decide_False.
  - rewrite K6, decide_True by done. by apply wpt_wadd.
  - intros k i. rewrite K6, decide_True, rureg_wadd by done. setoid_rewrite elem_of_list_singleton.
    destruct (decide (k = m)) as [->|Hne].
    + rewrite has_lor. split; [intros [?|?]; [by left|right; eauto]|]. intros [?|(y&[= ->]&?)]; auto.
    + split; [by left|]. intros [?|(y&[= -> ->]&?)]; [done|by destruct Hne].
Qed.
(** Adding to the map directly does the same, once there is one. *)
Lemma node_wadd_inactive s k x :
  is_Some (st_tree s !! inact dst ≫= nwatch) → (node_wadd E s (inact dst) k x).1 = (watchAddInactive E s dst k x).1.
Proof.
  intros [wi Hwi]. unfold watchAddInactive. rewrite Hwi. by destruct (node_wadd E s (inact dst) k x).
Qed.
Lemma copy_loop1 l : ∀ s,
  rinv (st_tree s) → is_Some (st_tree s !! dst) → wpt (wp_at (st_tree s) (inact dst)) → goods l →
  copied s l (foldl (λ s '(c, e), if decide (c = KNil) then s else (watchAddInactive E s dst c e).1) s l).
Proof.
  induction l as [|[k x] l IH]; intros s Ht Hs Hw Hg; [by apply copied_nil|]. cbn [foldl].
  assert (goods l) as Hg' by (intros k' x' Hx; apply Hg; by right).
  destruct (Hg k x ltac:(left)) as [->|(m&->&Hx)].
  - rewrite decide_True by done. specialize (IH s Ht Hs Hw Hg'). destruct IH as [A1 A2 A3 A4 A5 A6 A7 A8]. split; try done.
    + intros [?|(m&y&[?|?]%elem_of_cons)]; [apply A7; by left|done|apply A7; right; eauto].
    + intros m i. rewrite A8. setoid_rewrite elem_of_cons. naive_solver.
  - rewrite decide_False by done. pose proof (copied_add s m x Ht Hs Hw Hx) as Hc.
    apply (copied_app s [(KUser m, x)] _ l _ Hc). apply IH; [apply Hc| |apply Hc|done].
    by rewrite (cp_plain _ _ _ Hc).
Qed.
Lemma copy_loop2 l : ∀ s,
  rinv (st_tree s) → is_Some (st_tree s !! dst) → wpt (wp_at (st_tree s) (inact dst)) → goods l →
  is_Some (st_tree s !! inact dst ≫= nwatch) →
  copied s l (foldl (λ s '(c, e), if decide (c = KNil) then s else (node_wadd E s (inact dst) c e).1) s l).
Proof.
  induction l as [|[k x] l IH]; intros s Ht Hs Hw Hg Hn; [by apply copied_nil|]. cbn [foldl].
  assert (goods l) as Hg' by (intros k' x' Hx; apply Hg; by right).
  destruct (Hg k x ltac:(left)) as [->|(m&->&Hx)].
  - rewrite decide_True by done. specialize (IH s Ht Hs Hw Hg' Hn). destruct IH as [A1 A2 A3 A4 A5 A6 A7 A8]. split; try done.
    + intros [?|(m&y&[?|?]%elem_of_cons)]; [apply A7; by left|done|apply A7; right; eauto].
    + intros m i. rewrite A8. setoid_rewrite elem_of_cons. naive_solver.
  - rewrite decide_False by done. rewrite node_wadd_inactive by done. pose proof (copied_add s m x Ht Hs Hw Hx) as Hc.
    apply (copied_app s [(KUser m, x)] _ l _ Hc). apply IH; [apply Hc| |apply Hc|done|].
    + by rewrite (cp_plain _ _ _ Hc).
    + apply (cp_node _ _ _ Hc). by left.
Qed.
Lemma copy_spec s src :
  rinv (st_tree s) → is_Some (st_tree s !! dst) → (∀ q, wpt (wp_at (st_tree s) q)) → src ≠ dst → [] ∉ src →
  wp_at (st_tree s) src ≠ ∅ →
  ∃ l, copied s l (watchCopy E s src dst) ∧
    (∀ m i, (∃ x, (KUser m, x) ∈ l ∧ has x i) ↔
      has (wget (wp_at (st_tree s) src) (KUser m)) i ∨ has (wget (wp_at (st_tree s) (inact src)) (KUser m)) i).
Proof.
  intros Ht Hs Hw Hne Hsrc Hnz. unfold watchCopy.
  pose proof (eo_word _ (re_ok _ _ _ _ _ HE)) as Hord.
  pose proof (Hord (st_tick s) (map_to_list (wp_at (st_tree s) src))) as Hp1.
  set (l1 := e_word E (st_tick s) (map_to_list (wp_at (st_tree s) src))) in *.
  assert (goods l1) as Hg1 by (by eapply wpt_goods).
  pose proof (copy_loop1 l1 (ticked s) Ht Hs (Hw _) Hg1) as C1. set (s1 := foldl _ (ticked s) l1) in *.
  assert (wp_at (st_tree s1) (inact src) = wp_at (st_tree s) (inact src)) as Hi.
  { rewrite (cp_other _ _ _ C1); [done|]. intros K. apply app_inj_tail in K as [K _]. done. }
  cbv zeta. rewrite Hi.
  pose proof (Hord (st_tick s1) (map_to_list (wp_at (st_tree s) (inact src)))) as Hp2.
  set (l2 := e_word E (st_tick s1) (map_to_list (wp_at (st_tree s) (inact src)))) in *.
  assert (goods l2) as Hg2 by (by eapply wpt_goods).
  assert (∃ m x, (KUser m, x) ∈ l1) as Hex.
  { destruct (decide (wtotal P (wp_at (st_tree s) src) = 0)) as [Hz|Hz].
    - destruct Hnz. by apply (wtotal_zero P).
    - apply nonzero_bit in Hz as [i (m&Hm&_)%has_wtotal]; [|done]. apply (wget_list _ l1) in Hm as (x&Hx&_); [|done]. eauto. }
  pose proof (copy_loop2 l2 (ticked s1) (cp_inv _ _ _ C1)) as C2. cbn [ticked st_tree] in C2.
  specialize (C2 ltac:(rewrite (cp_plain _ _ _ C1); done) (cp_wpt _ _ _ C1) Hg2 (cp_node _ _ _ C1 (or_intror Hex))).
  exists (l1 ++ l2). split.
  - apply copied_tick_l. eapply copied_app; [exact C1|]. apply copied_tick_l. exact C2.
  - intros m i. rewrite (wget_list _ l1), (wget_list _ l2) by done. setoid_rewrite elem_of_app. split.
    + intros (x&[?|?]&?); [left|right]; eauto.
    + intros [(x&?&?)|(x&?&?)]; exists x; auto.
Qed.
End ops.

(** ** Collecting *)
Section collect.
Context (E : env) (HE : renv E).
Definition cfn (s : st) (h : path) : st * cb := (s, if (size (wp_at (st_tree s) h) =? 0)%nat then CNil else CSkip).
Definition csel (x : st * path) : Prop := size (wp_at (st_tree x.1) x.2) ≠ 0%nat.
Global Instance csel_dec x : Decision (csel x).
Proof. unfold csel. apply _. Defined.
Lemma collect_loop fuel : ∀ s l stack,
  loop (collect_step E) fuel (s, l) stack =
    (((loop (walk_step E cfn) fuel s stack).1, l ++ (filter csel (visits (walk_step E cfn) fuel s stack)).*2),
     (loop (walk_step E cfn) fuel s stack).2).
Proof.
  induction fuel as [|fuel IH]; intros s l [|h rest]; simpl; try (by rewrite app_nil_r).
  unfold walk_step, cfn at 1 3 5. destruct (Nat.eqb_spec (size (wp_at (st_tree s) h)) 0) as [Hz|Hz].
  - cbn [range_children]. rewrite IH. rewrite filter_cons_False; [done|]. unfold csel. intros K. by apply K.
  - rewrite IH. rewrite filter_cons_True; [|done]. rewrite fmap_cons, <-app_assoc. done.
Qed.
Lemma collect_spec s p :
  rinv (st_tree s) → is_Some (st_tree s !! p) →
  NoDup (collect E s p).2 ∧
  ∀ h, h ∈ (collect E s p).2 ↔
    reach (st_tree s) p h ∧ wp_at (st_tree s) h ≠ ∅ ∧ ∀ q, p `prefix_of` q → above q h → wp_at (st_tree s) q = ∅.
Proof.
  intros Ht Hs. unfold collect. rewrite collect_loop. cbn [fst snd app].
  pose proof (rinv_closed _ _ _ _ _ Ht) as Hcl. pose proof (eo_ord _ (re_ok _ _ _ _ _ HE)) as Hord.
  assert (∀ s h, same_nodes (st_tree s) (st_tree (cfn s h).1)) as Hfn by (intros; apply same_nodes_refl).
  change (visits (walk_step E cfn) (S (size (st_tree s))) s [p]) with (walk_visits E cfn s p).
  pose proof (nd_walk_terminates E Hord cfn Hfn s p Hcl Hs) as Hf.
  assert (∀ x y, (x, y) ∈ walk_visits E cfn s p → st_tree x = st_tree s) as Htree.
  { assert (∀ fuel s0 stack, st_tree s0 = st_tree s → ∀ x y, (x, y) ∈ visits (walk_step E cfn) fuel s0 stack → st_tree x = st_tree s) as K.
    { induction fuel as [|fuel IH]; intros s0 [|h rest] H0 x y; cbn [visits]; try by intros ?%elem_of_nil.
      intros [[= -> ->]|Hin]%elem_of_cons; [done|].
      unfold walk_step, cfn in Hin. cbn [range_children] in Hin. destruct (size _ =? 0)%nat; by eapply IH in Hin. }
    intros x y. unfold walk_visits. by apply K. }
  destruct (nd_walk E cfn s p) as [s' r] eqn:Ew. cbn [snd] in Hf.
  assert (r = LDone) as ->.
  { destruct r; [done| |done]. exfalso. unfold nd_walk in Ew.
    pose proof (loop_ind (walk_step E cfn) (λ _ _, True) (λ _, False) _ _ _ _ _
      (λ _ _ _ _ _ _ _, I) ltac:(intros s0 x rest s1 _ K; unfold walk_step, cfn in K; cbn [range_children] in K;
         destruct (size _ =? 0)%nat in K; discriminate K) I Ew) as K. exact K. }
  pose proof (nd_walk_visits E Hord cfn Hfn s p s' Hcl Hs Ew) as Hi.
  set (vis := walk_visits E cfn s p) in *.
  assert (∀ h, skipped cfn vis h ↔ h ∈ vpaths vis ∧ wp_at (st_tree s) h ≠ ∅) as Hsk.
  { intros h. unfold skipped, vpaths. rewrite elem_of_list_fmap. split.
    - intros (x&Hx&Hr). split; [by exists (x, h)|]. unfold cfn in Hr. cbn [snd] in Hr. rewrite (Htree _ _ Hx) in Hr.
      intros K. rewrite K, map_size_empty in Hr. done.
    - intros [([x h']&->&Hx) Hr]. exists x. split; [done|]. unfold cfn. cbn [snd]. rewrite (Htree _ _ Hx).
      destruct (Nat.eqb_spec (size (wp_at (st_tree s) h')) 0) as [K|]; [|done]. by apply map_size_empty_inv in K. }
  assert (∀ h, h ∈ (filter csel vis).*2 ↔ h ∈ vpaths vis ∧ wp_at (st_tree s) h ≠ ∅) as Hsel.
  { intros h. unfold vpaths. rewrite !elem_of_list_fmap. split.
    - intros ([x h']&->&[Hc Hx]%elem_of_list_filter). split; [by exists (x, h')|]. unfold csel in Hc. cbn [fst snd] in Hc |- *.
      rewrite (Htree _ _ Hx) in Hc. intros K. by rewrite K, map_size_empty in Hc.
    - intros [([x h']&->&Hx) Hr]. exists (x, h'). split; [done|]. apply elem_of_list_filter. split; [|done].
      unfold csel. cbn [fst snd] in Hr |- *. rewrite (Htree _ _ Hx). intros K. by apply map_size_empty_inv in K. }
  split.
  - pose proof (wi_nodup _ _ _ _ _ _ Hi) as Hnd. unfold vpaths in Hnd. clear - Hnd.
    induction vis as [|[x h] vis IH]; [constructor|]. rewrite fmap_cons in Hnd. apply NoDup_cons in Hnd as [H1 H2].
    rewrite filter_cons. destruct (decide (csel (x, h))); [|auto]. rewrite fmap_cons. apply NoDup_cons. split; [|auto].
    intros ([y h']&Hy&[_ K]%elem_of_list_filter)%elem_of_list_fmap. apply H1. apply elem_of_list_fmap. eauto.
  - intros h. rewrite Hsel. split.
    + intros [Hv Hne]. destruct (wi_vis _ _ _ _ _ _ Hi h Hv) as [Hr _]. split_and!; [done|done|].
      intros q Hpq [Hqh Hqne]. destruct (decide (wp_at (st_tree s) q = ∅)) as [|Hq]; [done|]. exfalso.
      assert (q ∈ vpaths vis) as Hqv.
      { apply elem_of_list_split in Hv as (l1&l2&Hl). pose proof (wi_order _ _ _ _ _ _ Hi _ _ _ Hl q Hpq Hqh Hqne) as K.
        rewrite Hl. set_solver. }
      by destruct (wi_skip _ _ _ _ _ _ Hi q h (proj2 (Hsk q) (conj Hqv Hq)) Hqh Hqne) as [[] _].
    + intros (Hr&Hne&Hab). split; [|done]. destruct (wi_cover _ _ _ _ _ _ Hi h Hr) as [?|[Hu|(q&Hq&Hqh&Hqne)]]; [done| |].
      * by apply under_nil in Hu.
      * apply Hsk in Hq as [Hq1 Hq2]. destruct Hq2. apply Hab; [|done].
        destruct (wi_vis _ _ _ _ _ _ Hi q Hq1) as [[_ (r&->&_)] _]. by apply prefix_app_r.
Qed.
End collect.
End copy.
