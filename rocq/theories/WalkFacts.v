(** * WalkFacts: the traversals of Node.v over a fixed set of nodes *)
From Verif Require Import Base Event Watchpoint WatchpointFacts Paths PathsFacts Loop LoopFacts Node NodeFacts.

(** Two trees with the same nodes (watchpoints and names may differ). *)
Definition same_nodes (t t' : tree) : Prop := ∀ q, is_Some (t !! q) ↔ is_Some (t' !! q).
Lemma same_nodes_refl t : same_nodes t t.
Proof. by intros q. Qed.
Lemma same_nodes_sym t t' : same_nodes t t' → same_nodes t' t.
Proof. intros H q. by rewrite (H q). Qed.
Lemma same_nodes_trans t t' t'' : same_nodes t t' → same_nodes t' t'' → same_nodes t t''.
Proof. intros H H' q. by rewrite (H q). Qed.
Lemma same_nodes_set_wp t h wp : same_nodes t (set_wp t h wp).
Proof. intros q. by rewrite set_wp_is_Some. Qed.
Lemma closed_same t t' : same_nodes t t' → closed t → closed t'.
Proof. intros Hs Hc p k H. apply Hs. apply Hs in H. by eapply Hc. Qed.
Lemma same_nodes_dom t t' : same_nodes t t' → dom t = dom t'.
Proof. intros H. apply set_eq. intros q. rewrite !elem_of_dom. apply H. Qed.
Lemma same_nodes_size t t' : same_nodes t t' → size t = size t'.
Proof. intros H. rewrite <-!size_dom. by rewrite (same_nodes_dom _ _ H). Qed.

(** Number of nodes at or below the stack: the measure of every traversal. *)
Definition pending (t : tree) (stack : list path) : nat := size (filter (under stack) (dom t)).
Lemma pending_le t stack : pending t stack ≤ size t.
Proof. unfold pending. rewrite <-size_dom. apply subseteq_size. set_solver. Qed.
Lemma pending_lt t t' stack stack' p :
  same_nodes t t' → is_Some (t !! p) → under stack p →
  (∀ q, is_Some (t !! q) → under stack' q → under stack q ∧ q ≠ p) →
  pending t' stack' < pending t stack.
Proof.
  intros Hs Hp Hu H. unfold pending. rewrite <-(same_nodes_dom _ _ Hs). apply subset_size. split.
  - intros q [H1 H2]%elem_of_filter. apply elem_of_dom in H2 as H3.
    apply elem_of_filter. split; [|done]. by apply H.
  - intros Hsub. specialize (Hsub p). rewrite !elem_of_filter, elem_of_dom in Hsub.
    destruct Hsub as [Hx _]; [done|]. by destruct (H p Hp Hx).
Qed.

Section walk.
Context (E : env) (Hord : ∀ n l, e_ord E n l ≡ₚ l).
Context (fn : st → path → st * cb).
Context (Hfn : ∀ s h, same_nodes (st_tree s) (st_tree (fn s h).1)).

(** The nodes Walk may reach from [h]: below it, through non-empty keys. *)
Definition reach (t : tree) (h q : path) : Prop :=
  is_Some (t !! q) ∧ ∃ r, q = h ++ r ∧ [] ∉ r.

Lemma NoDup_range s h : NoDup (range_children E s h).2.
Proof. simpl. rewrite Hord. apply NoDup_children. Qed.
Lemma elem_range s h k : k ∈ (range_children E s h).2 ↔ is_Some (st_tree s !! (h ++ [k])).
Proof. simpl. rewrite Hord. apply elem_of_children. Qed.

Definition vpaths (vis : list (st * path)) : list path := vis.*2.
Definition skipped (vis : list (st * path)) (p : path) : Prop :=
  ∃ s, (s, p) ∈ vis ∧ (fn s p).2 = CSkip.

Record walk_inv (t0 : tree) (h : path) (vis : list (st * path)) (s : st) (stack : list path) : Prop := {
  wi_nodes : same_nodes t0 (st_tree s);
  wi_anti : antichain stack;
  wi_stack : ∀ p, p ∈ stack → reach t0 h p;
  wi_nodup : NoDup (vpaths vis);
  wi_vis : ∀ p, p ∈ vpaths vis → reach t0 h p ∧ ¬ under stack p;
  wi_cover : ∀ q, reach t0 h q →
    q ∈ vpaths vis ∨ under stack q ∨ ∃ p, skipped vis p ∧ p `prefix_of` q ∧ p ≠ q;
  wi_skip : ∀ p q, skipped vis p → p `prefix_of` q → p ≠ q → q ∉ vpaths vis ∧ ¬ under stack q;
  wi_order : ∀ a p b, vpaths vis = a ++ p :: b →
    ∀ q, h `prefix_of` q → q `prefix_of` p → q ≠ p → q ∈ a;
  wi_sorder : ∀ p q, p ∈ stack → h `prefix_of` q → q `prefix_of` p → q ≠ p → q ∈ vpaths vis;
}.

Lemma skipped_app vis s p q :
  skipped (vis ++ [(s, p)]) q ↔ skipped vis q ∨ (q = p ∧ (fn s p).2 = CSkip).
Proof.
  unfold skipped. setoid_rewrite elem_of_app. setoid_rewrite elem_of_list_singleton. naive_solver.
Qed.

Lemma reach_prefix t h p q : closed t → reach t h q → h `prefix_of` p → p `prefix_of` q → reach t h p.
Proof.
  intros Hcl [Hq (r&->&Hr)] [r1 ->] Hp. split; [by eapply closed_prefix|].
  exists r1. split; [done|]. apply prefix_app_inv in Hp as [r2 ->]. set_solver.
Qed.

Lemma app_split_last {A} (l a bl : list A) x y :
  l ++ [x] = a ++ y :: bl → (bl = [] ∧ a = l ∧ x = y) ∨ (∃ b', bl = b' ++ [x] ∧ l = a ++ y :: b').
Proof.
  destruct bl as [|z bl _] using rev_ind.
  - intros [-> ->]%snoc_inj. by left.
  - rewrite app_comm_cons, app_assoc. intros [-> ->]%snoc_inj. right. eauto.
Qed.

Lemma walk_inv_pop t0 h vis s p rest s' ks :
  closed t0 → walk_inv t0 h vis s (p :: rest) → same_nodes t0 (st_tree s') →
  NoDup ks → (∀ k, k ∈ ks → is_Some (t0 !! (p ++ [k])) ∧ k ≠ []) →
  ((fn s p).2 = CSkip ∧ ks = [] ∨
   (fn s p).2 ≠ CSkip ∧ ∀ k, is_Some (t0 !! (p ++ [k])) → k ≠ [] → k ∈ ks) →
  walk_inv t0 h (vis ++ [(s, p)]) s' (((λ k, p ++ [k]) <$> ks) ++ rest).
Proof.
  intros Hcl [Hn Ha Hst Hnd Hv Hcov Hsk Hord1 Hord2] Hs' Hks Hin Hcase.
  assert (reach t0 h p) as Hrp by (apply Hst; left).
  assert (h `prefix_of` p) as Hhp by (destruct Hrp as [_ (r&->&_)]; by apply prefix_app_r).
  assert (∀ q, under (((λ k, p ++ [k]) <$> ks) ++ rest) q → under (p :: rest) q ∧ q ≠ p) as Hund.
  { intros q Hq. apply under_app in Hq as [Hq|Hq].
    - apply under_elem in Hq as (x&(k&->&Hk)%elem_of_list_fmap&Hx).
      split; [apply under_cons; left; by eapply snoc_prefix_of|].
      intros ->. destruct Hx as [r Hr]. apply (f_equal length) in Hr.
      rewrite !app_length in Hr. simpl in Hr. lia.
    - split; [apply under_cons; by right|]. intros ->. by eapply antichain_head. }
  assert (p ∉ vpaths vis) as Hpv.
  { intros H. destruct (Hv _ H) as [_ []]. apply under_cons. left. done. }
  assert (∀ q, q ∈ vpaths (vis ++ [(s, p)]) ↔ q ∈ vpaths vis ∨ q = p) as Hvp.
  { intros q. unfold vpaths. rewrite fmap_app. simpl. set_solver. }
  constructor.
  - done.
  - by apply antichain_push.
  - intros q [(k&->&Hk)%elem_of_list_fmap|Hq]%elem_of_app; [|apply Hst; by right].
    destruct (Hin k Hk) as [H1 H2]. split; [done|].
    destruct Hrp as [_ (r&->&Hr)]. exists (r ++ [k]). split; [by rewrite <-app_assoc|set_solver].
  - unfold vpaths. rewrite fmap_app. simpl. apply NoDup_app. split_and!; [done| |apply NoDup_singleton].
    intros q Hq ->%elem_of_list_singleton. done.
  - intros q [Hq| ->]%Hvp.
    + destruct (Hv q Hq) as [H1 H2]. split; [done|]. intros H. apply H2. by apply Hund.
    + split; [done|]. intros H. by apply Hund in H as [_ []].
  - intros q Hq. rewrite Hvp. destruct (Hcov q Hq) as [H|[H|(x&Hx&Hxq)]].
    + by left; left.
    + destruct (decide (q = p)) as [->|Hqp]; [by left; right|right].
      apply under_cons in H as [H|H]; [|left; apply under_app; by right].
      destruct Hcase as [[Hskip ->]|[Hnskip Hall]].
      * right. exists p. rewrite skipped_app. split_and!; try done. by right.
      * left. destruct (prefix_strict _ _ H (not_eq_sym Hqp)) as (k&r&->).
        apply under_app. left. apply under_elem. exists (p ++ [k]).
        split; [|exists r; by rewrite <-app_assoc]. apply elem_of_list_fmap. exists k. split; [done|].
        apply Hall.
        -- eapply closed_prefix; [done| |apply Hq]. exists r. by rewrite <-app_assoc.
        -- intros ->. destruct Hq as [_ (r'&Hr'&Hnil)]. destruct Hhp as [r0 ->].
           rewrite <-app_assoc in Hr'. apply app_inv_head in Hr' as <-. set_solver.
    + right; right. exists x. rewrite skipped_app. naive_solver.
  - intros x q. rewrite skipped_app, Hvp. intros [Hx|[-> Hx]] Hxq Hne.
    + destruct (Hsk x q Hx Hxq Hne) as [H1 H2]. split.
      * intros [?| ->]; [done|]. apply H2. apply under_cons. by left.
      * intros H. apply H2. by apply Hund.
    + split.
      * intros [H| ->]; [|done]. destruct (Hv q H) as [_ []]. apply under_cons. by left.
      * destruct Hcase as [[_ ->]|[Hn' _]]; [|done]. simpl. by eapply antichain_head'.
  - intros a x bl Heq q Hhq Hqx Hne. unfold vpaths in Heq. rewrite fmap_app in Heq. simpl in Heq.
    apply app_split_last in Heq as [(->&->& ->)|(b'&->&Heq)].
    + eapply Hord2; try done. by left.
    + by eapply Hord1.
  - intros x q Hx Hhq Hqx Hne. rewrite Hvp. apply elem_of_app in Hx as [(k&->&Hk)%elem_of_list_fmap|Hx].
    + apply prefix_snoc_cases in Hqx as [Hqx| ->]; [|done].
      destruct (decide (q = p)) as [->|Hqp]; [by right|left]. eapply Hord2; try done. by left.
    + left. eapply Hord2; try done. by right.
Qed.

Lemma walk_step_cases s p :
  (∃ s', walk_step E fn s p = (s', Abort) ∧ (fn s p).2 = CErr ∧ s' = (fn s p).1) ∨
  (∃ s' ks, walk_step E fn s p = (s', Push ((λ k, p ++ [k]) <$> ks)) ∧
     st_tree s' = st_tree (fn s p).1 ∧ NoDup ks ∧
     ((fn s p).2 = CSkip ∧ ks = [] ∧ s' = (fn s p).1 ∨
      (fn s p).2 = CNil ∧ ∀ k, k ∈ ks ↔ is_Some (st_tree s' !! (p ++ [k])) ∧ k ≠ [])).
Proof.
  unfold walk_step. destruct (fn s p) as [s1 [| |]] eqn:Ef; simpl.
  - right. eexists _, _. split_and!; try done.
    + apply NoDup_filter. rewrite Hord. apply NoDup_children.
    + right. split; [done|]. intros k. rewrite elem_of_list_filter, Hord, elem_of_children. naive_solver.
  - right. exists s1, []. split_and!; try done; [constructor|]. by left.
  - left. eauto.
Qed.

Lemma walk_inv_step t0 h vis s p rest s' l :
  closed t0 → walk_inv t0 h vis s (p :: rest) → walk_step E fn s p = (s', Push l) →
  walk_inv t0 h (vis ++ [(s, p)]) s' (l ++ rest).
Proof.
  intros Hcl Hinv Hstep. destruct (walk_step_cases s p) as [(?&H&_)|(s1&ks&H&Ht&Hnd&Hc)]; [congruence|].
  rewrite H in Hstep. injection Hstep as <- <-.
  assert (same_nodes t0 (st_tree s1)) as Hs1.
  { rewrite Ht. eapply same_nodes_trans; [apply Hinv|]. apply Hfn. }
  apply walk_inv_pop; try done.
  - destruct Hc as [(_&->&_)|[_ Hc]]; [intros k Hk; by apply elem_of_nil in Hk|].
    intros k Hk. apply Hc in Hk as [Hk ?]. split; [by apply Hs1|done].
  - destruct Hc as [(?&->&_)|[Hc1 Hc]]; [by left|right]. split; [congruence|].
    intros k Hk Hne. apply Hc. split; [by apply Hs1|done].
Qed.

Lemma walk_inv_init s h : is_Some (st_tree s !! h) → walk_inv (st_tree s) h [] s [h].
Proof.
  intros Hh. constructor.
  - done.
  - apply antichain_single.
  - intros p ->%elem_of_list_singleton. split; [done|]. exists []. split; [by rewrite app_nil_r|set_solver].
  - constructor.
  - intros p Hp. by apply elem_of_nil in Hp.
  - intros q [_ (r&->&_)]. right; left. apply under_cons. left. by apply prefix_app_r.
  - intros p q (s1&Hs&_). by apply elem_of_nil in Hs.
  - intros a p bl Heq. by destruct a.
  - intros p q ->%elem_of_list_singleton H1 H2 Hne. destruct Hne. by apply prefix_antisym.
Qed.

Lemma nd_walk_terminates s h : closed (st_tree s) → is_Some (st_tree s !! h) → (nd_walk E fn s h).2 ≠ LFuel.
Proof.
  intros Hcl Hh. unfold nd_walk.
  destruct (loop _ _ _ _) as [s' r] eqn:El. simpl.
  eapply (loop_terminates (walk_step E fn) (λ s1 stack, ∃ vis, walk_inv (st_tree s) h vis s1 stack)
            (λ s1 stack, pending (st_tree s1) stack)); [| | |exact El].
  - intros s1 p rest s2 l [vis Hinv] Hstep.
    pose proof (walk_inv_step _ _ _ _ _ _ _ _ Hcl Hinv Hstep) as Hinv'. split; [by eexists|].
    destruct Hinv as [Hn Ha Hst _ _ _ _ _ _]. destruct Hinv' as [Hn' _ _ _ Hv' _ _ _ _].
    eapply (pending_lt _ _ _ _ p).
    + eapply same_nodes_trans; [apply same_nodes_sym, Hn|done].
    + apply Hn. apply Hst. left.
    + apply under_cons. by left.
    + intros q Hq Hu. split.
      * destruct (walk_step_cases s1 p) as [(?&H&_)|(s3&ks&H&_)]; [congruence|].
        rewrite H in Hstep. injection Hstep as <- <-.
        apply under_app in Hu as [Hu|Hu]; [|apply under_cons; by right].
        apply under_elem in Hu as (x&(k&->&Hk)%elem_of_list_fmap&Hx).
        apply under_cons. left. by eapply snoc_prefix_of.
      * intros ->. destruct (Hv' p) as [_ []]; [|done]. unfold vpaths. rewrite fmap_app. set_solver.
  - exists []. by apply walk_inv_init.
  - pose proof (pending_le (st_tree s) [h]). lia.
Qed.

Definition walk_visits (s : st) (h : path) : list (st * path) :=
  visits (walk_step E fn) (S (size (st_tree s))) s [h].
Lemma nd_walk_visits s h s' :
  closed (st_tree s) → is_Some (st_tree s !! h) →
  nd_walk E fn s h = (s', LDone) → walk_inv (st_tree s) h (walk_visits s h) s' [].
Proof.
  intros Hcl Hh Hw.
  pose proof (visits_ind (walk_step E fn) (walk_inv (st_tree s) h) (λ _ _, True)
    (S (size (st_tree s))) [] s [h] s' LDone) as H. simpl in H. apply H; clear H.
  - intros vis s1 x rest s2 l Hi Hst. by eapply walk_inv_step.
  - done.
  - by apply walk_inv_init.
  - done.
Qed.
End walk.
