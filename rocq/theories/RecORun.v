(** * RecORun: deciding that a history of the recursive tree is orderly (used to exhibit
    instances of the property theorems) *)
From Verif Require Import Base Event Watchpoint WatchpointFacts Paths PathsFacts Loop LoopFacts
  Node NodeFacts SpecTree WalkFacts RootFacts NonRec NonRecWp SpecNonRec NonRecRun SpecOS Rec SpecRec RecFacts RecReg RecStop RecDisp RecStep RecTidy RecCopy RecOS RecRun.
Local Open Scope N_scope.

Definition paths_of (tr : list (nop * result)) : list path := omap (λ x, match x.1 with NWatch p _ _ _ => Some p | _ => None end) tr.
Definition chans_of (tr : list (nop * result)) : list positive := omap (λ x, match x.1 with NWatch _ _ n _ => Some n | _ => None end) tr.
Definition aboveb (p q : path) : bool := bool_decide (p ≠ q) && bool_decide (p = take (length p) q).
Lemma aboveb_ok p q : aboveb p q = true ↔ above p q.
Proof.
  unfold aboveb, above. rewrite andb_true_iff, !bool_decide_eq_true. split.
  - intros [H1 H2]. split; [|done]. exists (drop (length p) q). rewrite H2 at 1. by rewrite take_drop.
  - intros [[r ->] H2]. split; [done|]. by rewrite take_app.
Qed.
Definition lors (l : list N) : N := foldr N.lor 0 l.
Lemma has_lors l i : has (lors l) i ↔ ∃ x, x ∈ l ∧ has x i.
Proof.
  induction l as [|x l IH]; simpl.
  - split; [by intros ?%has_0|]. intros (x&H&_). by apply elem_of_nil in H.
  - rewrite has_lor, IH. split.
    + intros [H|(y&H1&H2)]; [exists x|exists y]; split; try done; [left|by right].
    + intros (y&[->|H]%elem_of_cons&Hi); [by left|right; eauto].
Qed.

Definition watchesb (tr : list (nop * result)) : bool :=
  forallb (λ x, match x with (NWatch _ _ _ e, ROk) => negb (e =? 0) | _ => false end) tr.
Lemma watchesb_ok tr : watchesb tr = true → watches tr.
Proof.
  unfold watchesb. rewrite forallb_forall. intros H. apply Forall_forall. intros [o r] Hx%elem_of_list_In.
  specialize (H _ Hx). cbn beta iota in H. destruct o as [? ? ? e|?|? ?], r; try done. split; [|done]. by apply N.eqb_neq, negb_true_iff.
Qed.
Definition recursivelyb (tr : list (nop * result)) : bool := forallb (λ x, match x.1 with NWatch _ true _ _ => true | _ => false end) tr.
Lemma recursivelyb_ok tr : recursivelyb tr = true → Forall (λ '(o, _), recursively o) tr.
Proof.
  unfold recursivelyb. rewrite forallb_forall. intros H. apply Forall_forall. intros [o r] Hx%elem_of_list_In.
  specialize (H _ Hx). cbn [fst] in H. by destruct o as [? [] ? ?|?|? ?].
Qed.

Section orun.
Context (P : platform) (sepc : ascii) (w : bool).
Notation vols := (if w then drive else novol).
Notation rpath := (rpath sepc w vols).
Notation renv := (renv P sepc w vols).
Lemma asked_supp tr p n : asked P tr p n ≠ 0 → p ∈ paths_of tr ∧ n ∈ chans_of tr.
Proof.
  unfold asked. induction tr as [|[o r] tr IH] using rev_ind; [done|].
  rewrite foldl_app. unfold paths_of, chans_of. rewrite !omap_app, !elem_of_app. cbn [foldl]. intros H.
  set (g := foldl (ask P) (λ _ _, 0) tr) in *.
  assert (g p n ≠ 0 ∨ ∃ isrec e, o = NWatch p isrec n e) as [K|(isrec&e&->)].
  { destruct o as [q isrec k e|k|ev q]; [destruct r|..]; cbn [ask] in H; try (by left); case_decide as Hd; try (by left); try done.
    destruct Hd as [-> ->]. right. eauto. }
  - destruct (IH K). split; by left.
  - split; right; by left.
Qed.
(** Events registered at and below [q]. *)
Definition at_ev (ps : list path) (cs : list positive) (g : path → positive → N) (q : path) : N :=
  lors (g q <$> cs) .&^ internal P.
Definition below_ev (ps : list path) (cs : list positive) (g : path → positive → N) (q : path) : N :=
  lors (at_ev ps cs g <$> filter (λ q', aboveb q q' = true) ps).
Section supp.
Context (ps : list path) (cs : list positive) (g : path → positive → N) (Hg : ∀ p n, g p n ≠ 0 → p ∈ ps ∧ n ∈ cs).
Lemma at_ev_ok q i : has (at_ev ps cs g q) i ↔ ev_at P g q i.
Proof.
  unfold at_ev, ev_at. rewrite has_ldiff, has_lors. split.
  - intros [(x&(n&->&Hn)%elem_of_list_fmap&Hx) Hi]. by exists n.
  - intros (n&H1&H2). split; [|done]. exists (g q n). split; [|done]. apply elem_of_list_fmap. exists n. split; [done|].
    apply (Hg q n). intros Hz. rewrite Hz in H1. by apply has_0 in H1.
Qed.
Lemma below_ev_ok q i : has (below_ev ps cs g q) i ↔ ev_below P g q i.
Proof.
  unfold below_ev, ev_below. rewrite has_lors. split.
  - intros (x&(q'&->&[H1 H2]%elem_of_list_filter)%elem_of_list_fmap&Hx). exists q'. split; [by apply aboveb_ok|by apply at_ev_ok].
  - intros (q'&H1&H2). exists (at_ev ps cs g q'). split; [|by apply at_ev_ok]. apply elem_of_list_fmap. exists q'. split; [done|].
    apply elem_of_list_filter. split; [by apply aboveb_ok|]. destruct H2 as (n&H2&_). apply (Hg q' n). intros Hz. rewrite Hz in H2. by apply has_0 in H2.
Qed.
Definition inclb (x y : N) : bool := x .&^ y =? 0.
Lemma inclb_ok x y : inclb x y = true ↔ incl_ev x y.
Proof.
  unfold inclb. rewrite N.eqb_eq. split.
  - intros H i Hi. destruct (has_dec y i) as [Hy|Hy]; [done|]. assert (has (x .&^ y) i) as K by (by apply has_ldiff).
    rewrite H in K. by apply has_0 in K.
  - intros H. apply has_ext. intros i. rewrite has_ldiff. split; [|by intros ?%has_0]. intros [K1 K2]. by apply H in K1.
Qed.
(** All OS watches are on paths in the list. *)
Definition knownb (m : ostab) : bool := forallb (λ x, existsb (λ q, bool_decide (x.1 = nameof sepc w q) && rpathb sepc w q) ps) (map_to_list m).
Lemma knownb_ok E m q : renv E → knownb m = true → rpath q → is_Some (m !! nameof sepc w q) → q ∈ ps.
Proof.
  intros HE Hk Hq [v Hv]. unfold knownb in Hk. rewrite forallb_forall in Hk.
  apply elem_of_map_to_list, elem_of_list_In in Hv. apply Hk, existsb_exists in Hv as (q'&H1&H2).
  apply andb_true_iff in H2 as [H2%bool_decide_eq_true H3]. apply elem_of_list_In in H1.
  apply (name_inj P sepc w vols E) in H2; [by subst|done|done|by apply rpathb_ok].
Qed.
Definition orderlyb (m : ostab) (o : nop) : bool :=
  knownb m &&
  match o with
  | NWatch p isrec _ e =>
      negb (e =? 0) &&
      forallb (λ q, negb (aboveb q p || (bool_decide (q = p) && isrec)) ||
        match m !! nameof sepc w q with Some (x, false) => negb (inclb e x) | _ => true end) ps &&
      forallb (λ q, negb (aboveb p q) || bool_decide (m !! nameof sepc w q = None) || existsb (λ n, negb (g q n =? 0)) cs) ps
  | NStop n =>
      let g' := without g n in
      forallb (λ q, bool_decide (m !! nameof sepc w q = None) ||
        inclb (below_ev ps cs g q) (below_ev ps cs g' q) ||
        negb (inclb (at_ev ps cs g q) (at_ev ps cs g' q)) ||
        inclb (at_ev ps cs g q) (below_ev ps cs g' q)) ps
  | NEvent _ _ => false
  end.
Lemma not_inclb x y : negb (inclb x y) = true → ∃ i, has x i ∧ ¬ has y i.
Proof.
  intros H. apply negb_true_iff in H. unfold inclb in H. apply N.eqb_neq, nonzero_bit in H as [i Hi]. exists i. by apply has_ldiff.
Qed.
End supp.
Lemma without_supp (ps : list path) (cs : list positive) (g : path → positive → N) n : (∀ p k, g p k ≠ 0 → p ∈ ps ∧ k ∈ cs) → ∀ p k, without g n p k ≠ 0 → p ∈ ps ∧ k ∈ cs.
Proof. intros H p k. unfold without. case_decide; [done|apply H]. Qed.
Lemma orderlyb_ok E (ps : list path) (cs : list positive) g m o : renv E → (∀ p n, g p n ≠ 0 → p ∈ ps ∧ n ∈ cs) →
  orderlyb ps cs g m o = true → orderly P sepc w vols g m o.
Proof.
  intros HE Hg [Hk H]%andb_true_iff. destruct o as [p isrec k e|n|? ?]; [| |done].
  - rewrite !andb_true_iff, negb_true_iff, N.eqb_neq, !forallb_forall in H. destruct H as [[H1 H2] H3]. split_and!; [done|..].
    + intros q x Hq Hqp Hor Hm. specialize (H2 q). rewrite <-elem_of_list_In in H2. specialize (H2 ltac:(eapply knownb_ok; eauto)).
      rewrite Hm, orb_true_iff, negb_true_iff in H2. destruct H2 as [H2|H2].
      * exfalso. apply orb_false_iff in H2 as [H2 H4]. destruct (decide (q = p)) as [->|Hne].
        -- rewrite bool_decide_true in H4 by done. destruct Hor as [| ->]; done.
        -- assert (aboveb q p = true) as K by (apply aboveb_ok; by split). congruence.
      * apply negb_true_iff in H2. intros K%inclb_ok. congruence.
    + intros q Hq Hpq Hw. specialize (H3 q). rewrite <-elem_of_list_In in H3. specialize (H3 ltac:(eapply knownb_ok; eauto)).
      rewrite !orb_true_iff, negb_true_iff, bool_decide_eq_true in H3. destruct H3 as [[H3|H3]|H3].
      * apply aboveb_ok in Hpq. congruence.
      * rewrite H3 in Hw. by destruct Hw.
      * apply existsb_exists in H3 as (n&_&Hn). exists n. by apply negb_true_iff, N.eqb_neq in Hn.
  - rewrite forallb_forall in H. intros q Hq Hw. specialize (H q). rewrite <-elem_of_list_In in H. specialize (H ltac:(eapply knownb_ok; eauto)).
    pose proof (without_supp ps cs g n Hg) as Hg'.
    rewrite !orb_true_iff, bool_decide_eq_true in H. destruct H as [[[H|H]|H]|H].
    + rewrite H in Hw. by destruct Hw.
    + left. intros i. rewrite <-(below_ev_ok ps cs g Hg), <-(below_ev_ok ps cs _ Hg'). by apply inclb_ok.
    + right; left. apply not_inclb in H as (i&H1&H2). exists i. rewrite <-(at_ev_ok ps cs g Hg), <-(at_ev_ok ps cs _ Hg'). done.
    + right; right. intros i. rewrite <-(at_ev_ok ps cs g Hg), <-(below_ev_ok ps cs _ Hg'). by apply inclb_ok.
Qed.
Fixpoint orun_ok (tr : list (nop * result)) (s : st) (l : list (env * nop)) : bool :=
  match l with
  | [] => true
  | (E, o) :: l => let '(s', r) := rstep sepc w E s o in
      rop_okb P sepc w o && orderlyb (paths_of tr) (chans_of tr) (asked P tr) (os_watches (st_log s)) o && orun_ok (tr ++ [(o, r)]) s' l
  end.
Lemma orun_from l : ∀ tr s, Forall (λ x, renv x.1 ∧ obliging P x.1) l → orun_ok tr s l = true → oexec P sepc w vols tr s →
  oexec P sepc w vols (tr ++ (rrun sepc w s l).1) (rrun sepc w s l).2.
Proof.
  induction l as [|[E o] l IH]; intros tr s Hl Hc Hx; simpl; [by rewrite app_nil_r|].
  apply Forall_cons in Hl as [(HE&HO) Hl]. cbn [orun_ok fst snd] in *.
  destruct (rstep sepc w E s o) as [s' r] eqn:Hs. rewrite !andb_true_iff in Hc. destruct Hc as [[H1 H2] H3].
  specialize (IH (tr ++ [(o, r)]) s' Hl H3). destruct (rrun sepc w s' l) as [tr' s'']. simpl in *. rewrite <-app_assoc in IH. apply IH.
  eapply oexec_step; [done|done|done|by apply rop_okb_ok|by eapply orderlyb_ok; [|apply asked_supp|]|done].
Qed.
Lemma orun_oexec l : Forall (λ x, renv x.1 ∧ obliging P x.1) l → orun_ok [] init_st l = true →
  oexec P sepc w vols (rrun sepc w init_st l).1 (rrun sepc w init_st l).2.
Proof. intros Hl Hc. apply (orun_from l [] init_st); [done|done|constructor]. Qed.
End orun.
