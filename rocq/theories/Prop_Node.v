(** * Property theorems C11-C14: the path tree. *)
From Verif Require Import Base Event Watchpoint WatchpointFacts Paths PathsFacts Loop LoopFacts Node
  NodeFacts SpecTree WalkFacts RootFacts.

Section node_props.
Context (sepc : ascii) (vol : str → str) (w : bool).

(** ** C11: the tree is a faithful map keyed by path *)
(** Add creates exactly the missing nodes on the path; every node present before
    is untouched, every other handle stays absent. *)
Theorem C11_add_exact t p name :
  tree_wf sepc w t → spells sepc vol w p name →
  (r_add sepc vol t name).2 = Some p ∧
  ∀ q, (r_add sepc vol t name).1 !! q =
    match t !! q with
    | Some nd => Some nd
    | None => if decide (q ≠ [] ∧ q `prefix_of` p) then Some (newnode (nameof sepc w q)) else None
    end.
Proof. apply r_add_spec. Qed.
(** Well-formedness is an invariant of Add and Del, starting from the empty tree. *)
Theorem C11_wf_init : tree_wf sepc w {[ [] := newnode [] ]}.
Proof.
  split.
  - rewrite lookup_singleton. done.
  - intros p k H. destruct p; rewrite lookup_singleton_ne in H by done; by destruct H.
  - intros p nd [<- <-]%lookup_singleton_Some _. by destruct w.
Qed.
Theorem C11_wf_add t p name :
  tree_wf sepc w t → spells sepc vol w p name → tree_wf sepc w (r_add sepc vol t name).1.
Proof. apply tree_wf_add. Qed.
(** Adding twice is adding once. *)
Theorem C11_add_idempotent t p name :
  tree_wf sepc w t → spells sepc vol w p name →
  r_add sepc vol (r_add sepc vol t name).1 name = r_add sepc vol t name.
Proof.
  intros Hwf Hsp. pose proof (tree_wf_add _ _ _ _ _ _ Hwf Hsp) as Hwf'.
  destruct (r_add_spec _ _ _ _ _ _ Hwf Hsp) as [H1 H2].
  destruct (r_add_spec _ _ _ _ _ _ Hwf' Hsp) as [H3 H4].
  destruct (r_add sepc vol t name) as [t1 h1]. simpl in *. subst h1.
  destruct (r_add sepc vol t1 name) as [t2 h2]. simpl in *. subst h2.
  f_equal. apply map_eq. intros q. rewrite H4, H2. destruct (t !! q); [done|].
  by case_decide.
Qed.
(** Get finds the node of a path exactly when it is there. *)
Theorem C11_get_exact t p name :
  tree_wf sepc w t → spells sepc vol w p name →
  r_get sepc vol t name = if decide (is_Some (t !! p)) then Some p else None.
Proof. apply r_get_spec. Qed.
Theorem C11_get_after_add t p name p' name' :
  tree_wf sepc w t → spells sepc vol w p name → spells sepc vol w p' name' →
  r_get sepc vol (r_add sepc vol t name).1 name' =
    if decide (is_Some (t !! p') ∨ p' `prefix_of` p) then Some p' else None.
Proof.
  intros Hwf Hsp Hsp'. rewrite (r_get_spec _ _ w _ p') by (try done; by eapply tree_wf_add).
  apply decide_ext. destruct (r_add_spec _ _ _ _ _ _ Hwf Hsp) as [_ ->].
  assert (p' ≠ []) as Hne. { intros ->. destruct Hsp' as [_ [_ H]]. destruct w; naive_solver. }
  destruct (t !! p') eqn:E; [naive_solver|]. case_decide as H; [naive_solver|].
  split; [by intros [? ?]|]. intros [[? ?]|?]; naive_solver.
Qed.
(** Different paths are different nodes. *)
Theorem C11_spells_unique p p' name :
  spells sepc vol w p name → spells sepc vol w p' name → p = p'.
Proof.
  intros [H1 [_ H2]] [H1' [_ H2']]. unfold nameof in *. destruct w.
  - destruct H2 as (v&cs&->&?&?&?&Hv), H2' as (v'&cs'&->&?&?&?&Hv').
    assert (v = v') as <- by congruence. f_equal. apply (render_inj sepc); try done.
    rewrite H1 in H1'. by apply app_inv_head in H1'.
  - apply (render_inj sepc); naive_solver congruence.
Qed.
(** Looking up or walking to a path that is not below the root finds nothing. *)
Theorem C11_get_foreign t h name :
  (¬ ∃ r, name = name_at t h ++ sepc :: r) → nd_get sepc t h name = None.
Proof.
  intros H. unfold nd_get. destruct (indexrel sepc (name_at t h) name) eqn:E; [|done].
  destruct H. apply indexrel_Some in E as (r&->&_). by exists r.
Qed.

(** ** C12: deletion is local *)
(** An existing path: the node and its subtree go, and so do those ancestors
    (below the root or volume) under which nothing else is left: every node at
    or below such an ancestor is either in the deleted subtree or a bare link of
    the chain to it.  Every other node is untouched and nothing appears. *)
Theorem C12_del_exact t p name :
  tree_wf sepc w t → spells sepc vol w p name → is_Some (t !! p) →
  (r_del sepc vol t name).2 = true ∧
  ∀ q,
    let gone := p `prefix_of` q ∨
      (above (if w then take 1 p else []) q ∧ q `prefix_of` p ∧
       ∀ x, is_Some (t !! x) → q `prefix_of` x →
         p `prefix_of` x ∨ (x `prefix_of` p ∧ size (wp_at t x) ≤ 1)) in
    (gone → (r_del sepc vol t name).1 !! q = None) ∧
    (¬ gone → (r_del sepc vol t name).1 !! q = t !! q).
Proof.
  intros Hwf Hsp Hex. split.
  { by eapply (r_del_spec _ _ _ _ _ _ p). }
  intros q. destruct (t !! q) as [nd|] eqn:Eq.
  - destruct (r_del_spec sepc vol w t p name q) as (_&H1&H2); try done.
    rewrite Eq in H2. unfold del_gone, start, above in *. split.
    + intros [H|H]; apply H1; [by left|right]. naive_solver.
    + intros H. apply H2. intros [H'|H']; apply H; [by left|right]. naive_solver.
  - by rewrite (r_del_None sepc vol t name q).
Qed.
Theorem C12_del_missing t p name :
  tree_wf sepc w t → spells sepc vol w p name → t !! p = None → r_del sepc vol t name = (t, false).
Proof. apply r_del_missing. Qed.
Theorem C12_wf_del t p name :
  tree_wf sepc w t → spells sepc vol w p name → tree_wf sepc w (r_del sepc vol t name).1.
Proof. apply tree_wf_del. Qed.

(** ** C13: path walks *)
Theorem C13_walkpath {A} (fn : A → path → bool → A * cb) t a p name :
  tree_wf sepc w t → spells sepc vol w p name →
  r_walkpath sepc vol fn t a name = along fn t a (chain w p).
Proof. apply r_walkpath_spec. Qed.
(** With a callback that records its calls and never stops: exactly the existing
    ancestors, in order, and the error tells whether the node itself is missing. *)
Theorem C13_recorded t p name :
  tree_wf sepc w t → spells sepc vol w p name →
  let rec_fn := λ (l : list (path * bool)) q isbase, (l ++ [(q, isbase)], CNil) in
  is_Some (t !! p) → r_walkpath sepc vol rec_fn t [] name = (chain w p, WPOk).
Proof.
  intros Hwf Hsp rec_fn Hex. rewrite (r_walkpath_spec _ _ w _ _ _ p) by done.
  assert (Forall (λ x, is_Some (t !! x.1)) (chain w p)) as Hall.
  { apply Forall_forall. intros x (n&->&_)%elem_of_list_fmap. simpl.
    eapply closed_prefix; [exact (twf_closed _ _ _ Hwf)| |exact Hex].
    exists (drop n p). by rewrite take_drop. }
  assert (∀ l acc, Forall (λ x, is_Some (t !! x.1)) l → along rec_fn t acc l = (acc ++ l, WPOk)) as H.
  { clear. intros l. induction l as [|[q isb] l IH]; intros acc Hall; simpl; [by rewrite app_nil_r|].
    apply Forall_cons in Hall as [[nd Hnd] Hall]. simpl in Hnd. rewrite Hnd, IH by done.
    by rewrite <-app_assoc. }
  by rewrite H.
Qed.
Theorem C13_missing {A} (fn : A → path → bool → A * cb) t a p name :
  tree_wf sepc w t → spells sepc vol w p name →
  (∀ a q isb, (fn a q isb).2 = CNil) → t !! p = None →
  (r_walkpath sepc vol fn t a name).2 = WPNotExist.
Proof.
  intros Hwf Hsp Hfn Hnone. rewrite (r_walkpath_spec _ _ w _ _ _ p) by done.
  assert (Exists (λ x, t !! x.1 = None) (chain w p)) as Hex.
  { apply Exists_exists. exists (p, true). split; [|done]. apply elem_of_list_fmap.
    exists (length p). rewrite firstn_all, bool_decide_true by done. split; [done|].
    apply elem_of_seq. destruct Hsp as [_ [_ Hsp]]. destruct w; [|lia].
    destruct Hsp as (v&cs&->&_). simpl. lia. }
  revert a. induction (chain w p) as [|[q isb] l IH]; intros a; [by apply Exists_nil in Hex|].
  simpl. apply Exists_cons in Hex as [Hq|Hex].
  - simpl in Hq. by rewrite Hq.
  - destruct (t !! q); [|done]. specialize (Hfn a q isb). destruct (fn a q isb) as [a1 r].
    simpl in Hfn. subst r. by apply IH.
Qed.
End node_props.

(** ** C14: tree walks *)
Lemma visits_calls E fn fuel s stack s' r :
  loop (walk_step E fn) fuel s stack = (s', r) →
  calls fn s ((λ x, (x.2, (fn x.1 x.2).2)) <$> visits (walk_step E fn) fuel s stack) s'.
Proof.
  revert s stack. induction fuel as [|fuel IH]; intros s stack; destruct stack as [|p rest]; simpl;
    try (intros [= <- <-]; constructor).
  destruct (walk_step E fn s p) as [s1 [l|]] eqn:Ew; unfold walk_step in Ew;
    destruct (fn s p) as [s2 c] eqn:Ef.
  - intros Hl. assert (st_tree s1 = st_tree s2 ∧ st_log s1 = st_log s2 ∧ st_panic s1 = st_panic s2) as (H1&H2&H3).
    { destruct c; simpl in Ew; [|by injection Ew as <- <-|done]. by injection Ew as <- <-. }
    econstructor; [exact Ef|exact H1|exact H2|exact H3|]. by apply IH.
  - destruct c; simpl in Ew; try done. injection Ew as <-. intros [= <- <-].
    econstructor; [exact Ef|done|done|done|constructor].
Qed.

(** For every callback that neither adds nor removes nodes and every map
    iteration order: Walk terminates; it calls the callback on each node at most
    once, a node after all its ancestors; unless the callback fails, exactly the
    nodes below the start (other than below an empty key) that have no skipped
    proper ancestor are visited. *)
Theorem C14_walk E fn s h s' r :
  (∀ n l, e_ord E n l ≡ₚ l) →
  (∀ s h q, is_Some (st_tree (fn s h).1 !! q) ↔ is_Some (st_tree s !! q)) →
  (∀ p k, is_Some (st_tree s !! (p ++ [k])) → is_Some (st_tree s !! p)) →
  is_Some (st_tree s !! h) →
  nd_walk E fn s h = (s', r) →
  r ≠ LFuel ∧
  ∃ l : list (path * cb),
    calls fn s l s' ∧
    NoDup l.*1 ∧
    (∀ a p c, l.*1 = a ++ p :: c → ∀ q, h `prefix_of` q → above q p → q ∈ a) ∧
    (r = LErr → ∃ l' p, l = l' ++ [(p, CErr)]) ∧
    (r = LDone → ∀ q, q ∈ l.*1 ↔
       (is_Some (st_tree s !! q) ∧ ∃ rel, q = h ++ rel ∧ [] ∉ rel) ∧
       ¬ ∃ p, (p, CSkip) ∈ l ∧ above p q).
Proof.
  intros Hord Hfn Hcl Hh Hw.
  assert (∀ s h, same_nodes (st_tree s) (st_tree (fn s h).1)) as Hfn' by (intros s1 h1 q; by rewrite Hfn).
  split.
  { pose proof (nd_walk_terminates E Hord fn Hfn' s h Hcl Hh) as H. by rewrite Hw in H. }
  exists ((λ x, (x.2, (fn x.1 x.2).2)) <$> walk_visits E fn s h).
  assert (((λ x, (x.2, (fn x.1 x.2).2)) <$> walk_visits E fn s h).*1 = vpaths (walk_visits E fn s h)) as Hv.
  { unfold vpaths. rewrite <-list_fmap_compose. done. }
  rewrite Hv. split; [by eapply visits_calls|].
  pose (Q := λ (vis : list (st * path)) (s' : st),
    NoDup (vpaths vis) ∧
    (∀ a p c, vpaths vis = a ++ p :: c → ∀ q, h `prefix_of` q → above q p → q ∈ a) ∧
    ∃ v s p, vis = v ++ [(s, p)] ∧ (fn s p).2 = CErr).
  pose proof (visits_ind (walk_step E fn) (walk_inv fn (st_tree s) h) Q
    (S (size (st_tree s))) [] s [h] s' r) as Hvi. simpl in Hvi. fold (walk_visits E fn s h) in Hvi.
  assert (match r with
          | LDone => walk_inv fn (st_tree s) h (walk_visits E fn s h) s' []
          | LErr => Q (walk_visits E fn s h) s'
          | LFuel => ∃ stack, walk_inv fn (st_tree s) h (walk_visits E fn s h) s' stack end) as Hr.
  { apply Hvi; clear Hvi; [| |by apply (walk_inv_init E Hord fn Hfn')|done].
    - intros vis s1 x rest s2 l Hi Hst. by eapply walk_inv_step.
    - intros vis s1 p rest s2 Hi Hst.
      destruct (walk_step_cases E Hord fn s1 p) as [(?&H&H1&H2)|(?&?&H&_)]; [|congruence].
      unfold Q. split_and!.
      + unfold vpaths. rewrite fmap_app. simpl. apply NoDup_app. split_and!; [apply Hi| |apply NoDup_singleton].
        intros q Hq ->%elem_of_list_singleton. destruct (wi_vis _ _ _ _ _ _ Hi p Hq) as [_ []].
        apply under_cons. by left.
      + intros a q c Heq y Hhx [Hx Hne]. unfold vpaths in Heq. rewrite fmap_app in Heq. simpl in Heq.
        apply app_split_last in Heq as [(->&->& ->)|(b'&->&Heq)].
        * eapply (wi_sorder _ _ _ _ _ _ Hi); try done. by left.
        * by eapply (wi_order _ _ _ _ _ _ Hi).
      + eauto 10. }
  assert (∀ vis p, (p, CSkip) ∈ ((λ x, (x.2, (fn x.1 x.2).2)) <$> vis) ↔ skipped fn vis p) as Hsk.
  { intros vis p. unfold skipped. rewrite elem_of_list_fmap. split.
    - intros ([s1 p1]&Heq&Hin). simpl in Heq. injection Heq as -> Hs. eauto.
    - intros (s1&Hin&Hs). exists (s1, p). simpl. by rewrite Hs. }
  destruct r.
  - split_and!; [apply Hr| |done|].
    + intros a p c Heq q Hq [H1 H2]. by eapply (wi_order _ _ _ _ _ _ Hr).
    + intros _ q. setoid_rewrite Hsk. destruct Hr as [_ _ _ _ Hv1 Hcov Hskp _ _]. split.
      * intros Hq. destruct (Hv1 q Hq) as [[H1 H2] _]. split; [done|].
        intros (p&Hp&Hpq&Hne). by destruct (Hskp p q Hp Hpq Hne).
      * intros [H1 H2]. destruct (Hcov q H1) as [?|[H|(p&?&?&?)]]; [done| |].
        -- by apply under_nil in H.
        -- destruct H2. exists p. done.
  - destruct Hr as (H1&H2&v&s1&p&H3&H4). split_and!; try done.
    intros _. exists ((λ x, (x.2, (fn x.1 x.2).2)) <$> v), p. rewrite H3, fmap_app. simpl. by rewrite H4.
  - destruct Hr as [stack Hr]. split_and!; [apply Hr| |done|done].
    intros a p c Heq q Hq [H1 H2]. by eapply (wi_order _ _ _ _ _ _ Hr).
Qed.

(** ** The hypotheses are met by real trees *)
Definition slash : ascii := "/"%char.
Definition novol : str → str := λ _, [].
(** C:\ paths: the volume is everything up to and including the colon. *)
Definition winvol : str → str := λ s,
  match s with c :: d :: _ => if Ascii.eqb d ":" then [c; d] else [] | _ => [] end.
Definition ex_t : tree := (r_add slash novol (r_add slash novol {[ [] := newnode [] ]} (b "/a/b/c")).1 (b "/a/x")).1.
Example ex_spells : spells slash novol false [b "a"; b "b"; b "c"] (b "/a/b/c").
Proof. split; [done|]. split; [set_solver|]. split_and!; try done. repeat constructor; unfold comp_ok; set_solver. Qed.
Example ex_spells_win : spells "\"%char winvol true [b "C:"; b "a"] (b "C:\a").
Proof. split; [done|]. split; [set_solver|]. exists (b "C:"), [b "a"]. split_and!; try done. repeat constructor; unfold comp_ok; set_solver. Qed.
Example ex_wf : tree_wf slash false ex_t.
Proof.
  assert (spells slash novol false [b "a"; b "x"] (b "/a/x")).
  { split; [done|]. split; [set_solver|]. split_and!; try done. repeat constructor; unfold comp_ok; set_solver. }
  eapply C11_wf_add; [|done]. eapply C11_wf_add; [|apply ex_spells]. apply C11_wf_init.
Qed.
(** Deleting /a/b/c also drops the bare link /a/b but keeps /a, which leads to /a/x. *)
Example ex_del : map fst (map_to_list (r_del slash novol ex_t (b "/a/b/c")).1) ≡ₚ
                 [[]; [b "a"]; [b "a"; b "x"]].
Proof. vm_compute. repeat constructor || (eapply Permutation_trans; [apply perm_swap|]). Qed.
Example ex_walkpath : r_walkpath slash novol (λ l q isb, (l ++ [(q, isb)], CNil)) ex_t [] (b "/a/b")
  = ([([], false); ([b "a"], false); ([b "a"; b "b"], true)], WPOk).
Proof. by vm_compute. Qed.
Definition ex_env : env := Env linux slash novol (λ _ _, true) (λ _ l, l) (λ _ l, l) (λ _ _, None) 0.
(** A callback recording the visited node in the log and skipping /a/b. *)
Definition ex_fn (s : st) (p : path) : st * cb :=
  ((wcallf ex_env s (WUnwatch (nameof slash false p))).1, if decide (p = [b "a"; b "b"]) then CSkip else CNil).
Example ex_walk_hyps :
  (∀ n l, e_ord ex_env n l ≡ₚ l) ∧
  (∀ s h q, is_Some (st_tree (ex_fn s h).1 !! q) ↔ is_Some (st_tree s !! q)).
Proof. done. Qed.
Example ex_walk :
  (λ x, (st_log x.1, x.2)) (nd_walk ex_env ex_fn (St ex_t [] 0 false) [])
  = ((λ n, (WUnwatch n, true)) <$> [b ""; b "/a"; b "/a/b"; b "/a/x"], LDone).
Proof. by vm_compute. Qed.
