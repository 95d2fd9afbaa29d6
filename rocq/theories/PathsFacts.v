(** * PathsFacts: proofs about Paths.v *)
From Verif Require Import Base Event Paths.

Section facts.
Context (sepc : ascii).

Lemma aeqb_eq a c : Ascii.eqb a c = true ↔ a = c.
Proof. apply Ascii.eqb_eq. Qed.

(** ** indexSep *)
Lemma indexSep_None s : indexSep sepc s = None ↔ sepc ∉ s.
Proof.
  induction s as [|c s IH]; simpl; [split; [intros _; apply not_elem_of_nil|done]|].
  rewrite not_elem_of_cons. destruct (Ascii.eqb_spec c sepc) as [->|Hne].
  - naive_solver.
  - rewrite fmap_None, IH. naive_solver.
Qed.
Lemma indexSep_Some s j :
  indexSep sepc s = Some j ↔ ∃ a r, s = a ++ sepc :: r ∧ sepc ∉ a ∧ j = length a.
Proof.
  revert j. induction s as [|c s IH]; intros j; simpl.
  - split; [done|]. intros ([]&?&?&_); done.
  - destruct (Ascii.eqb_spec c sepc) as [->|Hne].
    + split.
      * intros [= <-]. exists [], s. repeat split; try done. apply not_elem_of_nil.
      * intros (a&r&E&Hn&->). destruct a as [|x a]; [done|]. simpl in E.
        injection E as <- _. set_solver.
    + rewrite fmap_Some. setoid_rewrite IH. split.
      * intros (k&(a&r&->&?&->)&->). exists (c::a), r. repeat split; try done. set_solver.
      * intros (a&r&E&Hn&->). destruct a as [|x a]; simpl in E; injection E as ? ?; [done|].
        exists (length a). split; [|done]. exists a, r. subst. set_solver.
Qed.
Lemma indexSep_app a r : sepc ∉ a → indexSep sepc (a ++ sepc :: r) = Some (length a).
Proof. intros. apply indexSep_Some. eauto. Qed.

(** ** lastIndexSep *)
Lemma lastIndexSepFrom_spec s n :
  n ≤ length s →
  match lastIndexSepFrom sepc s n with
  | Some i => s !! i = Some sepc ∧ i < n ∧ ∀ k, i < k → k < n → s !! k ≠ Some sepc
  | None => ∀ k, k < n → s !! k ≠ Some sepc
  end.
Proof.
  induction n as [|n IH]; intros Hn; simpl; [intros; lia|].
  destruct (lookup_lt_is_Some_2 s n) as [c Hc]; [lia|]. rewrite Hc.
  destruct (Ascii.eqb_spec c sepc) as [->|Hne].
  - repeat split; [done|lia|]. intros. lia.
  - specialize (IH ltac:(lia)).
    destruct (lastIndexSepFrom sepc s n) as [i|].
    + destruct IH as (?&?&H3). repeat split; [done|lia|]. intros k ??.
      destruct (decide (k = n)) as [->|]; [congruence|]. apply H3; lia.
    + intros k ?. destruct (decide (k = n)) as [->|]; [congruence|]. apply IH; lia.
Qed.
Lemma lastIndexSep_None s : lastIndexSep sepc s = None ↔ sepc ∉ s.
Proof.
  unfold lastIndexSep. pose proof (lastIndexSepFrom_spec s (length s) ltac:(lia)) as H.
  destruct (lastIndexSepFrom _ _ _) as [i|].
  - split; [done|]. intros Hn. destruct H as (H&_). destruct Hn. by eapply elem_of_list_lookup_2.
  - split; [|done]. intros _ Hin. apply elem_of_list_lookup_1 in Hin as [k Hk].
    eapply H; [|done]. by eapply lookup_lt_Some.
Qed.
Lemma lastIndexSep_Some s i :
  lastIndexSep sepc s = Some i ↔ ∃ a r, s = a ++ sepc :: r ∧ sepc ∉ r ∧ i = length a.
Proof.
  unfold lastIndexSep. pose proof (lastIndexSepFrom_spec s (length s) ltac:(lia)) as H.
  destruct (lastIndexSepFrom _ _ _) as [i'|].
  - destruct H as (H1&H2&H3). split.
    + intros [= <-]. exists (take i' s), (drop (S i') s). split; [|split].
      * by rewrite take_drop_middle.
      * intros Hin. apply elem_of_list_lookup_1 in Hin as [k Hk]. rewrite lookup_drop in Hk.
        eapply (H3 (S i' + k)); [lia| |done]. by eapply lookup_lt_Some.
      * rewrite take_length. lia.
    + intros (a&r&->&Hr&->). f_equal.
      destruct (Nat.lt_trichotomy i' (length a)) as [Hl|[?|Hg]]; [|done|].
      * exfalso. eapply (H3 (length a)); [done| |].
        -- rewrite app_length; simpl; lia.
        -- by rewrite lookup_app_r, Nat.sub_diag by lia.
      * exfalso. rewrite lookup_app_r in H1 by lia.
        destruct (i' - length a) as [|k] eqn:E; [lia|]. simpl in H1.
        apply Hr. by eapply elem_of_list_lookup_2.
  - split; [done|]. intros (a&r&->&Hr&->). exfalso. eapply (H (length a)).
    + rewrite app_length; simpl; lia.
    + by rewrite lookup_app_r, Nat.sub_diag by lia.
Qed.

(** ** split and base *)
Lemma split_sep a r : sepc ∉ r → split sepc (a ++ sepc :: r) = (a, r).
Proof.
  intros Hr. unfold split. assert (lastIndexSep sepc (a ++ sepc :: r) = Some (length a)) as ->.
  { apply lastIndexSep_Some. eauto. }
  rewrite take_app. f_equal.
  change (drop (S (length a)) (a ++ sepc :: r) = r).
  replace (S (length a)) with (length a + 1) by lia.
  rewrite <-drop_drop, drop_app. done.
Qed.
Lemma split_nosep s : sepc ∉ s → split sepc s = ([], s).
Proof. intros H. unfold split. by apply lastIndexSep_None in H as ->. Qed.
Lemma base_split s : base sepc s = (split sepc s).2.
Proof. unfold base, split. by destruct (lastIndexSep sepc s). Qed.
Lemma sep_dec (s : str) : sepc ∈ s ∨ sepc ∉ s.
Proof. destruct (decide (sepc ∈ s)); auto. Qed.
Lemma split_cases s :
  (∃ a r, s = a ++ sepc :: r ∧ sepc ∉ r ∧ split sepc s = (a, r)) ∨
  (sepc ∉ s ∧ split sepc s = ([], s)).
Proof.
  destruct (lastIndexSep sepc s) as [i|] eqn:E.
  - apply lastIndexSep_Some in E as (a&r&->&?&_). left. exists a, r. repeat split; try done.
    by apply split_sep.
  - apply lastIndexSep_None in E. right. split; [done|]. by apply split_nosep.
Qed.

(** ** indexrel *)
Lemma indexrel_Some root name n :
  indexrel sepc root name = Some n ↔ ∃ r, name = root ++ sepc :: r ∧ n = S (length root).
Proof.
  unfold indexrel. split.
  - destruct (length root <? length name) eqn:E1; simpl; [|done].
    case_bool_decide as E2; simpl; [|done].
    destruct (name !! length root) as [c|] eqn:E3; [|done].
    destruct (Ascii.eqb_spec c sepc) as [->|]; [|done]. intros [= <-].
    exists (drop (S (length root)) name). split; [|done].
    rewrite <-E2 at 1. by rewrite take_drop_middle.
  - intros (r&->&->).
    assert ((length root <? length (root ++ sepc :: r)) = true) as ->.
    { apply Nat.ltb_lt. rewrite app_length. simpl. lia. }
    rewrite take_app, bool_decide_true by done. simpl.
    rewrite lookup_app_r, Nat.sub_diag by lia. simpl.
    by rewrite Ascii.eqb_refl.
Qed.
Lemma indexrel_None root name :
  indexrel sepc root name = None ↔ ¬ ∃ r, name = root ++ sepc :: r.
Proof.
  destruct (indexrel sepc root name) as [n|] eqn:E.
  - apply indexrel_Some in E as (r&->&->). split; [done|]. intros H. destruct H. eauto.
  - split; [|done]. intros _ (r&->).
    assert (indexrel sepc root (root ++ sepc :: r) = Some (S (length root))) as E2.
    { apply indexrel_Some. eauto. }
    congruence.
Qed.

(** ** Rendering of component lists: "/a/b/c" is [render [a;b;c]] *)
Fixpoint render (cs : list str) : str :=
  match cs with
  | [] => []
  | c :: cs => sepc :: c ++ render cs
  end.
Definition comp_ok (c : str) : Prop := sepc ∉ c.
Notation comps_ok := (Forall comp_ok).

Lemma render_nil : render [] = [].
Proof. done. Qed.
Lemma render_cons c cs : render (c :: cs) = sepc :: c ++ render cs.
Proof. done. Qed.
Lemma render_app cs ds : render (cs ++ ds) = render cs ++ render ds.
Proof.
  induction cs as [|c cs IH]; simpl; [done|]. rewrite IH. by rewrite <-app_assoc.
Qed.
Lemma render_snoc cs c : render (cs ++ [c]) = render cs ++ sepc :: c.
Proof. rewrite render_app, render_cons, render_nil, app_nil_r. done. Qed.

Lemma sep_split_unique (a a' r r' : str) :
  sepc ∉ a → sepc ∉ a' → a ++ sepc :: r = a' ++ sepc :: r' → a = a' ∧ r = r'.
Proof.
  revert a'. induction a as [|x a IH]; intros [|y a'] Ha Ha' H; simpl in *.
  - by injection H.
  - injection H as -> ->. set_solver.
  - injection H as -> ?. set_solver.
  - injection H as -> H. destruct (IH a') as [-> ->]; set_solver.
Qed.
Lemma render_cons_inv c cs c' cs' :
  comp_ok c → comp_ok c' → render (c :: cs) = render (c' :: cs') → c = c' ∧ render cs = render cs'.
Proof.
  rewrite !render_cons. intros Hc Hc' H. injection H as H.
  destruct cs as [|d cs], cs' as [|d' cs'].
  - rewrite !render_nil, !app_nil_r in H. done.
  - rewrite render_nil, render_cons, app_nil_r in H. subst. unfold comp_ok in Hc. set_solver.
  - rewrite render_nil, render_cons, app_nil_r in H. subst. unfold comp_ok in Hc'. set_solver.
  - rewrite !render_cons in *. apply sep_split_unique in H as [-> ->]; done.
Qed.
Lemma render_inj cs cs' : comps_ok cs → comps_ok cs' → render cs = render cs' → cs = cs'.
Proof.
  revert cs'. induction cs as [|c cs IH]; intros [|c' cs'] H H' E; [done| | |].
  - rewrite render_cons in E. done.
  - rewrite render_cons in E. done.
  - apply Forall_cons in H as [? ?]. apply Forall_cons in H' as [? ?].
    apply render_cons_inv in E as [-> E]; try done. f_equal. by apply IH.
Qed.

(** Prefix of rendered paths = component prefix. *)
Lemma render_prefix cs ds r :
  comps_ok cs → comps_ok ds → render ds = render cs ++ sepc :: r →
  ∃ d es, ds = cs ++ d :: es ∧ r = d ++ render es.
Proof.
  revert ds. induction cs as [|c cs IH]; intros ds Hc Hd E; simpl in *.
  - destruct ds as [|d es]; [done|]. simpl in E. injection E as <-. by exists d, es.
  - apply Forall_cons in Hc as [Hc Hcs]. destruct ds as [|d ds]; [done|].
    apply Forall_cons in Hd as [Hd Hds].
    simpl in E. injection E as E. rewrite <-app_assoc in E.
    assert (c = d ∧ render ds = render cs ++ sepc :: r) as [-> E2].
    { destruct ds as [|d2 ds]; simpl in E.
      - exfalso. rewrite app_nil_r in E. subst d. unfold comp_ok in Hd.
        apply Hd. apply elem_of_app. right. apply elem_of_app. right. left.
      - destruct cs as [|c2 cs]; simpl in *.
        + apply sep_split_unique in E as [-> ->]; done.
        + apply sep_split_unique in E as [-> E]; [|done..]. by rewrite E. }
    destruct (IH ds) as (d'&es&->&->); try done. by exists d', es.
Qed.
Lemma indexrel_render cs ds :
  comps_ok cs → comps_ok ds →
  is_Some (indexrel sepc (render cs) (render ds)) ↔ ∃ d es, ds = cs ++ d :: es.
Proof.
  intros Hc Hd. split.
  - intros [n (r&E&_)%indexrel_Some]. apply render_prefix in E as (d&es&->&_); try done. eauto.
  - intros (d&es&->). exists (S (length (render cs))). apply indexrel_Some.
    rewrite render_app, render_cons. eauto.
Qed.
Lemma split_render cs c : comp_ok c → split sepc (render (cs ++ [c])) = (render cs, c).
Proof. intros. rewrite render_snoc. by apply split_sep. Qed.
Lemma base_render cs c : comp_ok c → base sepc (render (cs ++ [c])) = c.
Proof. intros. rewrite base_split, split_render; done. Qed.

(** ** joinevents *)
Lemma has_foldl_lor l a i : has (foldl N.lor a l) i ↔ has a i ∨ ∃ e, e ∈ l ∧ has e i.
Proof.
  revert a. induction l as [|x l IH]; intros a; simpl.
  - split; [by left|]. intros [?|(?&H&_)]; [done|]. by apply elem_of_nil in H.
  - rewrite IH, has_lor. setoid_rewrite elem_of_cons. naive_solver.
Qed.

(** ** the "..." suffix *)
Lemma hasSuffix_spec s suf : hasSuffix s suf = true ↔ ∃ p, s = p ++ suf.
Proof.
  unfold hasSuffix. rewrite andb_true_iff, Nat.leb_le, bool_decide_eq_true. split.
  - intros [Hl E]. exists (take (length s - length suf) s).
    rewrite <-E at 2. by rewrite take_drop.
  - intros [p ->]. rewrite app_length. split; [lia|].
    replace (length p + length suf - length suf) with (length p) by lia. apply drop_app.
Qed.
Lemma cutdots_spec s :
  (∃ p, s = p ++ dots ∧ cutdots s = (p, true)) ∨
  ((¬ ∃ p, s = p ++ dots) ∧ cutdots s = (s, false)).
Proof.
  unfold cutdots. destruct (hasSuffix s dots) eqn:E.
  - apply hasSuffix_spec in E as [p ->]. left. exists p. split; [done|].
    rewrite app_length. simpl length. replace (length p + 3 - 3) with (length p) by lia.
    by rewrite take_app.
  - right. split; [|done]. rewrite <-hasSuffix_spec. by rewrite E.
Qed.
End facts.
Notation comps_ok sepc := (Forall (comp_ok sepc)).
