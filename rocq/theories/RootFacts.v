(** * RootFacts: root-level functions of Node.v in component terms *)
From Verif Require Import Base Event Watchpoint WatchpointFacts Paths PathsFacts Loop LoopFacts Node NodeFacts SpecTree WalkFacts.

Section root.
Context (sepc : ascii) (vol : str → str) (w : bool).
Notation nameof := (nameof sepc).
Notation render := (render sepc).
Notation spells := (spells sepc vol w).
Notation tree_wf := (tree_wf sepc w).

(** Where the relative part of a path starts. *)
Definition start (p : path) : path := if w then take 1 p else [].
Definition rel (p : path) : path := if w then drop 1 p else p.
Lemma start_rel p : start p ++ rel p = p.
Proof. unfold start, rel. destruct w; [apply take_drop|done]. Qed.
Lemma nameof_start_rel p r : p ≠ [] ∨ w = false → nameof w (start p ++ r) = nameof w (start p) ++ render r.
Proof.
  intros Hp. unfold start, SpecTree.nameof. destruct w; [|done].
  destruct p as [|v p]; [by destruct Hp|]. simpl. by rewrite app_nil_r.
Qed.
Lemma spells_ne p name : spells p name → p ≠ [] ∨ w = false.
Proof. intros [_ [_ H]]. destruct w; [left|by right]. by destruct H as (v&cs&->&_). Qed.
Lemma spells_rel p name : spells p name → rel p ≠ [] ∧ comps_ok sepc (rel p).
Proof.
  intros [_ [_ H]]. unfold rel. destruct w; [|naive_solver].
  destruct H as (v&cs&->&?&?&?&?). simpl. by rewrite drop_0.
Qed.
Lemma spells_name p name : spells p name → name = nameof w (start p) ++ render (rel p).
Proof.
  intros H. rewrite <-nameof_start_rel by (by eapply spells_ne). rewrite start_rel. apply H.
Qed.

Lemma start_nonempty p name : spells p name → [] ∉ start p.
Proof.
  intros [_ [_ H]]. unfold start. destruct w; [|set_solver]. destruct H as (v&cs&->&?&_). simpl.
  rewrite take_0. set_solver.
Qed.

Lemma addroot_spec t p name :
  tree_wf t → spells p name →
  ∃ t', r_addroot vol t name = (t', start p) ∧ tree_wf t' ∧ name_at t' (start p) = nameof w (start p) ∧
    is_Some (t' !! start p) ∧
    ∀ q, t' !! q = match t !! q with
                   | Some nd => Some nd
                   | None => if decide (q ≠ [] ∧ q `prefix_of` start p) then Some (newnode (nameof w q)) else None
                   end.
Proof.
  intros Hwf Hsp. pose proof Hsp as [Hname [_ H]]. unfold r_addroot, start. destruct w eqn:Ew.
  - destruct H as (v&cs&->&Hv&Hcs&Hok&Hvol). rewrite Hvol. destruct v as [|a v0] eqn:Ev; [done|]. rewrite <-Ev in *.
    assert (take 1 (v :: cs) = [v]) as -> by (by simpl; rewrite take_0).
    assert (r_eq : (match t !! [v] with Some _ => (t, [v]) | None => addchild t [] v v end)
             = ((addchild t [] v v).1, [v])).
    { unfold addchild. simpl. by destruct (t !! [v]). }
    rewrite r_eq. exists (addchild t [] v v).1. split; [done|].
    assert (∀ q, (addchild t [] v v).1 !! q =
      match t !! q with
      | Some nd => Some nd
      | None => if decide (q ≠ [] ∧ q `prefix_of` [v]) then Some (newnode (nameof true q)) else None end) as Hl.
    { intros q. rewrite lookup_addchild. destruct (t !! q); [done|]. simpl.
      destruct (decide (q = [v])) as [->|Hne].
      - rewrite decide_True by done. by rewrite app_nil_r.
      - rewrite decide_False; [done|]. intros [Hq Hp]. apply Hne.
        destruct q as [|x q]; [done|]. apply prefix_cons_inv_1 in Hp as Hx. subst x.
        apply prefix_cons_inv_2 in Hp. by apply prefix_nil_inv in Hp as ->. }
    destruct Hwf as [Hr Hc Hn].
    assert (∀ q nd, (addchild t [] v v).1 !! q = Some nd → [] ∉ q → nname nd = nameof true q) as Hn'.
    { intros q nd. rewrite Hl. destruct (t !! q) as [nd'|] eqn:E; [intros [= <-]; by apply Hn|].
      case_decide; [|done]. by intros [= <-]. }
    assert (is_Some ((addchild t [] v v).1 !! [v])) as Hvs.
    { rewrite Hl. destruct (t !! [v]); [done|]. rewrite decide_True by done. done. }
    split_and!; try done.
    + split; [|  |done].
      * rewrite Hl. destruct Hr as [? ->]. done.
      * intros q k. rewrite !Hl. destruct (t !! (q ++ [k])) eqn:E.
        -- intros _. destruct (Hc q k) as [? ->]; done.
        -- case_decide as H; [|by intros [? ?]]. destruct H as [_ H].
           apply prefix_length in H. rewrite app_length in H. simpl in H.
           destruct q; [|simpl in H; lia]. destruct Hr as [? ->]. done.
    + unfold name_at. destruct Hvs as [nd Hnd]. rewrite Hnd. apply Hn'; [done|]. set_solver.
  - destruct H as (_&_&->). exists t. split_and!; try done.
    + unfold name_at. destruct (twf_root _ _ _ Hwf) as [nd Hnd]. rewrite Hnd. apply (twf_name _ _ _ Hwf); [done|set_solver].
    + apply (twf_root _ _ _ Hwf).
    + intros q. destruct (t !! q) eqn:E; [done|]. rewrite decide_False; [done|].
      intros [Hq Hp]. by apply prefix_nil_inv in Hp.
Qed.

Lemma r_add_spec t p name :
  tree_wf t → spells p name →
  (r_add sepc vol t name).2 = Some p ∧
  ∀ q, (r_add sepc vol t name).1 !! q =
    match t !! q with
    | Some nd => Some nd
    | None => if decide (q ≠ [] ∧ q `prefix_of` p) then Some (newnode (nameof w q)) else None
    end.
Proof.
  intros Hwf Hsp. destruct (addroot_spec t p name Hwf Hsp) as (t1&Hr&Hwf1&Hnm&Hex&Hl).
  unfold r_add. rewrite Hr. destruct (spells_rel _ _ Hsp) as [Hne Hok].
  rewrite (spells_name _ _ Hsp). rewrite <-Hnm, nd_add_spec, start_rel by done. simpl. split; [done|].
  intros q. rewrite lookup_addc, Hl. destruct (t !! q) as [nd|] eqn:E; [done|].
  case_decide as H.
  - rewrite decide_True; [done|]. destruct H as [? H]. split; [done|].
    etrans; [exact H|]. exists (rel p). by rewrite start_rel.
  - rewrite Hnm. destruct (strip (start p) q) as [[|x r]|] eqn:Es.
    + apply strip_Some in Es. rewrite app_nil_r in Es. subst q.
      rewrite decide_False; [done|]. naive_solver.
    + apply strip_Some in Es. subst q. rewrite nameof_start_rel by (by eapply spells_ne).
      assert (x :: r `prefix_of` rel p ↔ start p ++ x :: r ≠ [] ∧ start p ++ x :: r `prefix_of` p) as Hiff.
      { split.
        - intros [z Hz]. split; [by destruct (start p)|]. exists z.
          rewrite <-app_assoc, <-Hz. by rewrite start_rel.
        - intros [_ [z Hz]]. exists z. rewrite <-app_assoc in Hz.
          apply (app_inv_head (start p)). by rewrite start_rel. }
      case_decide as H1; case_decide as H2; try done; naive_solver.
    + rewrite decide_False; [done|]. intros [Hq Hp]. apply strip_None in Es.
      assert (start p `prefix_of` p) as Hsp' by (by exists (rel p); rewrite start_rel).
      destruct (prefix_weak_total _ _ _ Hsp' Hp); [done|]. apply H. done.
Qed.

Lemma tree_wf_add t p name : tree_wf t → spells p name → tree_wf (r_add sepc vol t name).1.
Proof.
  intros Hwf Hsp. destruct (r_add_spec t p name Hwf Hsp) as [_ Hl]. destruct Hwf as [Hr Hc Hn]. split.
  - rewrite Hl. by destruct Hr as [? ->].
  - intros q k. rewrite !Hl. destruct (t !! (q ++ [k])) as [nd|] eqn:E.
    + intros _. destruct (Hc q k) as [? ->]; done.
    + case_decide as H; [|by intros [? ?]]. intros _. destruct (t !! q) eqn:E2; [done|].
      rewrite decide_True; [done|]. split.
      * intros ->. destruct Hr as [? ?]. congruence.
      * etrans; [|apply H]. by apply prefix_app_r.
  - intros q nd. rewrite Hl. destruct (t !! q) eqn:E; [intros [= <-]; by apply Hn|].
    case_decide; [|done]. by intros [= <-].
Qed.

(** Names are non-empty text beyond the start node's name. *)
Lemma r_root_spec t p name :
  tree_wf t → spells p name →
  r_root vol t name = if decide (is_Some (t !! start p)) then Some (start p) else None.
Proof.
  intros Hwf Hsp. pose proof Hsp as [Hname [_ H]]. unfold r_root, start. destruct w.
  - destruct H as (v&cs&->&Hv&Hcs&Hok&Hvol). rewrite Hvol. destruct v as [|a v0] eqn:Ev; [done|]. rewrite <-Ev in *.
    assert (take 1 (v :: cs) = [v]) as -> by (by simpl; rewrite take_0).
    destruct (t !! [v]) eqn:E; case_decide as Hd; try done; by destruct Hd.
  - destruct H as (_&_&->). rewrite decide_True; [done|]. apply (twf_root _ _ _ Hwf).
Qed.
Lemma name_at_wf t q : tree_wf t → [] ∉ q → is_Some (t !! q) → name_at t q = nameof w q.
Proof. intros Hwf Hq [nd Hnd]. unfold name_at. rewrite Hnd. by apply (twf_name _ _ _ Hwf). Qed.

Lemma r_get_spec t p name :
  tree_wf t → spells p name →
  r_get sepc vol t name = if decide (is_Some (t !! p)) then Some p else None.
Proof.
  intros Hwf Hsp. unfold r_get. rewrite (r_root_spec t p name) by done.
  destruct (spells_rel _ _ Hsp) as [Hne Hok].
  case_decide as Hs.
  - rewrite (name_at_wf t (start p)) by (try done; by eapply start_nonempty). rewrite decide_False.
    + rewrite (spells_name _ _ Hsp), <-(name_at_wf t (start p)) by (try done; by eapply start_nonempty).
      rewrite nd_get_spec; [|done|done|exact (twf_closed _ _ _ Hwf)]. by rewrite start_rel.
    + rewrite (spells_name _ _ Hsp). intros H. rewrite <-(app_nil_r (nameof w (start p))) in H at 1.
      apply app_inv_head in H. destruct (rel p); done.
  - rewrite decide_False; [done|]. intros H. apply Hs.
    eapply closed_prefix; [exact (twf_closed _ _ _ Hwf)| |exact H].
    exists (rel p). by rewrite start_rel.
Qed.

(** ** WalkPath *)
Lemma chain_cons (p q : path) c cs n0 :
  p = q ++ c :: cs → n0 ≤ length q →
  (λ n, (take n p, bool_decide (n = length p))) <$> seq (length q) (S (length (c :: cs)))
  = (q, false) :: ((λ n, (take n p, bool_decide (n = length p))) <$> seq (length (q ++ [c])) (S (length cs))).
Proof.
  intros -> _. simpl seq. rewrite fmap_cons. f_equal.
  - rewrite take_app. f_equal. rewrite bool_decide_false; [done|]. rewrite app_length. simpl. lia.
  - f_equal. rewrite (app_length q [c]). simpl length. by rewrite Nat.add_1_r.
Qed.
Lemma walkc_along {A} (fn : A → path → bool → A * cb) t a q c cs :
  is_Some (t !! q) →
  walkc fn t a q c cs =
  along fn t a ((λ n, (take n (q ++ c :: cs), bool_decide (n = length (q ++ c :: cs))))
                  <$> seq (length q) (S (length (c :: cs)))).
Proof.
  revert a q c. induction cs as [|d cs IH]; intros a q c Hq; rewrite (chain_cons _ q c _ 0) by (done || lia).
  - simpl. destruct Hq as [nd Hnd]. rewrite Hnd. destruct (fn a q false) as [a1 []]; try done.
    rewrite take_ge by done. rewrite bool_decide_true by done.
    destruct (t !! (q ++ [c])); [|done]. destruct (fn a1 (q ++ [c]) true) as [a2 []]; done.
  - cbn [walkc along]. destruct Hq as [nd Hnd]. rewrite Hnd. destruct (fn a q false) as [a1 []]; try done.
    destruct (t !! (q ++ [c])) as [nd'|] eqn:E.
    + rewrite IH by (by rewrite E). by rewrite <-app_assoc.
    + simpl seq. rewrite fmap_cons. cbn [along].
      replace (take (length (q ++ [c])) (q ++ c :: d :: cs)) with (q ++ [c]).
      * by rewrite E.
      * replace (q ++ c :: d :: cs) with ((q ++ [c]) ++ d :: cs) by (by rewrite <-app_assoc).
        by rewrite take_app.
Qed.
Lemma r_walkpath_spec {A} (fn : A → path → bool → A * cb) t a p name :
  tree_wf t → spells p name →
  r_walkpath sepc vol fn t a name = along fn t a (chain w p).
Proof.
  intros Hwf Hsp. unfold r_walkpath. rewrite (r_root_spec t p name) by done.
  destruct (spells_rel _ _ Hsp) as [Hne Hok].
  assert (chain w p = (λ n, (take n p, bool_decide (n = length p))) <$> seq (length (start p)) (S (length (rel p)))) as Hch.
  { unfold rel in Hne. unfold chain, start, rel. clear Hwf Hsp Hok. destruct w.
    - destruct p as [|v p]; [by destruct Hne|]. simpl. rewrite drop_0. done.
    - simpl length. by rewrite Nat.sub_0_r. }
  case_decide as Hs.
  - rewrite (spells_name _ _ Hsp), <-(name_at_wf t (start p)) by (try done; by eapply start_nonempty).
    destruct (rel p) as [|c cs] eqn:Er; [done|].
    rewrite nd_walkpath_spec by done. rewrite walkc_along by done.
    rewrite Hch. by rewrite <-Er, start_rel.
  - rewrite Hch. simpl seq. rewrite fmap_cons. cbn [along].
    replace (take (length (start p)) p) with (start p) by (transitivity (take (length (start p)) (start p ++ rel p)); [by rewrite take_app|by rewrite start_rel]).
    destruct (t !! start p) eqn:E; [by destruct Hs|done].
Qed.

(** ** Del *)
Lemma base_nameof p k : w = false ∨ p ≠ [] → comp_ok sepc k → base sepc (nameof w (p ++ [k])) = k.
Proof.
  intros Hp Hk. destruct w; simpl.
  - destruct Hp as [?|Hp]; [done|]. destruct p as [|v cs]; [done|]. simpl.
    rewrite render_snoc, app_assoc. rewrite base_split. by rewrite split_sep.
  - by apply base_render.
Qed.
Lemma bases_ok_wf t p name : tree_wf t → spells p name → ∀ cs k, rel p = cs ++ [k] → bases_ok sepc t (start p) cs.
Proof.
  intros Hwf Hsp cs k Hrel r x Hp Hx. destruct (spells_rel _ _ Hsp) as [_ Hok].
  rewrite (name_at_wf _ _ Hwf); [|clear Hx|done].
  2:{ destruct Hsp as [_ [Hnil _]]. rewrite <-(start_rel p), Hrel in Hnil.
      replace (start p ++ cs ++ [k]) with ((start p ++ cs) ++ [k]) in Hnil by (by rewrite app_assoc).
      rewrite removelast_last in Hnil. destruct Hp as [z ->]. set_solver. }
  rewrite app_assoc. apply base_nameof.
  - destruct (spells_ne _ _ Hsp) as [Hne|]; [|by left]. unfold start. destruct w; [right|by left].
    by destruct p.
  - rewrite Hrel in Hok. apply Forall_app in Hok as [Hok _].
    destruct Hp as [z ->]. rewrite !Forall_app in Hok. destruct Hok as [[_ Hok] _]. by inversion Hok.
Qed.
Lemma r_del_missing t p name :
  tree_wf t → spells p name → t !! p = None → r_del sepc vol t name = (t, false).
Proof.
  intros Hwf Hsp Hnone. unfold r_del. rewrite (r_root_spec t p name) by done.
  case_decide as Hs; [|done].
  destruct (spells_rel _ _ Hsp) as [Hne Hok].
  destruct (exists_last Hne) as (cs&k&Hrel).
  rewrite (spells_name _ _ Hsp), <-(name_at_wf t (start p)) by (try done; by eapply start_nonempty). rewrite Hrel in *.
  rewrite nd_del_spec; [|done|exact (twf_closed _ _ _ Hwf)|by eapply bases_ok_wf].
  rewrite <-Hrel, start_rel, Hnone, decide_False; [done|]. by intros [? ?].
Qed.
Lemma r_del_spec t p name q :
  tree_wf t → spells p name → is_Some (t !! p) → is_Some (t !! q) →
  (r_del sepc vol t name).2 = true ∧
  (del_gone t (start p) p q → (r_del sepc vol t name).1 !! q = None) ∧
  (¬ del_gone t (start p) p q → (r_del sepc vol t name).1 !! q = t !! q).
Proof.
  intros Hwf Hsp Hex Hq. unfold r_del. rewrite (r_root_spec t p name) by done.
  destruct (spells_rel _ _ Hsp) as [Hne Hok].
  assert (is_Some (t !! start p)) as Hs.
  { eapply closed_prefix; [exact (twf_closed _ _ _ Hwf)| |exact Hex].
    exists (rel p). by rewrite start_rel. }
  rewrite decide_True by done.
  destruct (exists_last Hne) as (cs&k&Hrel).
  assert (p = start p ++ cs ++ [k]) as Hp by (by rewrite <-Hrel, start_rel).
  rewrite (spells_name _ _ Hsp), <-(name_at_wf t (start p)) by (try done; by eapply start_nonempty).
  rewrite Hrel in *. split.
  - rewrite nd_del_spec; [|done|exact (twf_closed _ _ _ Hwf)|by eapply bases_ok_wf].
    rewrite <-Hp, decide_True; done.
  - pose proof (nd_del_lookup sepc t (start p) cs k q) as H. rewrite <-Hp in H.
    apply H; try done; [exact (twf_closed _ _ _ Hwf)|by eapply bases_ok_wf].
Qed.
Lemma r_del_None t name q : t !! q = None → (r_del sepc vol t name).1 !! q = None.
Proof.
  intros Hq. unfold r_del. destruct (r_root vol t name) as [h|]; [|done]. unfold nd_del.
  destruct (indexrel _ _ _) as [i|]; [|done].
  assert (∀ t st k, t !! q = None → prune sepc t st k !! q = None) as Hpr.
  { clear. intros t st. revert t. induction st as [|h st IH]; intros t k Hq; simpl; [done|].
    destruct (busy _ _); [done|]. apply IH. rewrite lookup_delete_sub. by case_decide. }
  generalize (length name). intros fuel. generalize ([h]). revert h i.
  assert (∀ p, delete_sub t p !! q = None) as Hds by (intros p; rewrite lookup_delete_sub; by case_decide).
  induction fuel as [|fuel IH]; intros h i l; cbn [del_loop];
    repeat case_match; cbn [fst]; try done; try (by apply Hpr).
Qed.
Lemma tree_wf_del t p name : tree_wf t → spells p name → tree_wf (r_del sepc vol t name).1.
Proof.
  intros Hwf Hsp. destruct (t !! p) as [ndp|] eqn:Ep; [|by rewrite (r_del_missing t p name)].
  assert (∀ q, (r_del sepc vol t name).1 !! q = None ∨ (r_del sepc vol t name).1 !! q = t !! q) as Hsub.
  { intros q. destruct (t !! q) as [nd|] eqn:Eq; [|left; by apply r_del_None].
    destruct (r_del_spec t p name q) as (_&H1&H2); try done.
    destruct ((r_del sepc vol t name).1 !! q) as [nd'|] eqn:E'; [|by left].
    right. rewrite <-Eq in *. rewrite <-H2; [done|]. intros Hg. by specialize (H1 Hg). }
  split.
  - destruct (twf_root _ _ _ Hwf) as [nd Hnd].
    destruct (r_del_spec t p name []) as (_&_&H); [done|done|by eexists|by eexists|].
    rewrite H; [by eexists|]. intros [Hp|(Hs&Hne&_)].
    + apply prefix_nil_inv in Hp. subst p. destruct (spells_rel _ _ Hsp) as [Hr _]. unfold rel in Hr. by destruct w.
    + apply prefix_nil_inv in Hs. done.
  - intros q k Hk. destruct (Hsub (q ++ [k])) as [H|H]; [rewrite H in Hk; by destruct Hk|].
    assert (is_Some (t !! (q ++ [k]))) as Hk' by (by rewrite <-H).
    pose proof (twf_closed _ _ _ Hwf _ _ Hk') as Hq.
    destruct (r_del_spec t p name q) as (_&_&H2); [done|done|by eexists|done|].
    rewrite H2; [done|]. intros Hg.
    destruct (r_del_spec t p name (q ++ [k])) as (_&H3&_); [done|done|by eexists|done|].
    rewrite H3 in Hk; [by destruct Hk|]. destruct Hg as [Hg|(Hs&Hne&Hqp&Hall)].
    + left. by apply prefix_app_r.
    + destruct (Hall (q ++ [k]) Hk') as [H4|[H4 H5]]; [by apply prefix_app_r|by left|right].
      split_and!; [by apply prefix_app_r| |done|].
      * intros Heq. rewrite <-Heq in Hs. apply prefix_length in Hs. rewrite app_length in Hs. simpl in Hs. lia.
      * intros x Hx Hpx. apply Hall; [done|]. by eapply snoc_prefix_of.
  - intros q nd Hnd. destruct (Hsub q) as [H|H]; [congruence|]. apply (twf_name _ _ _ Hwf). congruence.
Qed.
End root.
