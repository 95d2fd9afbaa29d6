(** * LoopFacts: induction principles for Loop.v and frontier reasoning *)
From Verif Require Import Base Loop.

Section loop.
Context {S X : Type} (step : S → X → S * sres X).

Lemma loop_ind (Inv : S → list X → Prop) (Q : S → Prop) fuel s stack s' r :
  (∀ s x rest s' l, Inv s (x :: rest) → step s x = (s', Push l) → Inv s' (l ++ rest)) →
  (∀ s x rest s', Inv s (x :: rest) → step s x = (s', Abort) → Q s') →
  Inv s stack →
  loop step fuel s stack = (s', r) →
  match r with
  | LDone => Inv s' []
  | LErr => Q s'
  | LFuel => ∃ stack', Inv s' stack'
  end.
Proof.
  intros Hpush Habort. revert s stack.
  induction fuel as [|fuel IH]; intros s stack Hinv Hl; destruct stack as [|x rest]; simpl in Hl.
  - injection Hl as <- <-. done.
  - injection Hl as <- <-. by eexists.
  - injection Hl as <- <-. done.
  - destruct (step s x) as [s1 [l|]] eqn:Es.
    + eapply IH; [|exact Hl]. by eapply Hpush.
    + injection Hl as <- <-. by eapply Habort.
Qed.

(** Plain state invariant. *)
Lemma loop_inv (I : S → Prop) (J : X → Prop) fuel s stack s' r :
  (∀ s x s' a, I s → J x → step s x = (s', a) →
     I s' ∧ match a with Push l => Forall J l | Abort => True end) →
  I s → Forall J stack → loop step fuel s stack = (s', r) → I s'.
Proof.
  intros Hstep HI HJ Hl.
  pose proof (loop_ind (λ s st, I s ∧ Forall J st) I fuel s stack s' r) as H.
  assert (match r with LDone => I s' ∧ Forall J [] | LErr => I s' | LFuel => ∃ st, I s' ∧ Forall J st end) as H'.
  { apply H; try done.
    - intros s1 x rest s2 l [H1 H2] Hs. apply Forall_cons in H2 as [H2 H3].
      destruct (Hstep _ _ _ _ H1 H2 Hs) as [H4 H5]. split; [done|]. by apply Forall_app.
    - intros s1 x rest s2 [H1 H2] Hs. apply Forall_cons in H2 as [H2 H3].
      by destruct (Hstep _ _ _ _ H1 H2 Hs). }
  destruct r; naive_solver.
Qed.

Lemma loop_terminates (Inv : S → list X → Prop) (mu : S → list X → nat) fuel s stack s' r :
  (∀ s x rest s' l, Inv s (x :: rest) → step s x = (s', Push l) →
     Inv s' (l ++ rest) ∧ mu s' (l ++ rest) < mu s (x :: rest)) →
  Inv s stack → mu s stack < fuel → loop step fuel s stack = (s', r) → r ≠ LFuel.
Proof.
  intros Hpush. revert s stack.
  induction fuel as [|fuel IH]; intros s stack Hinv Hmu Hl; destruct stack as [|x rest]; simpl in Hl.
  - injection Hl as <- <-. done.
  - lia.
  - injection Hl as <- <-. done.
  - destruct (step s x) as [s1 [l|]] eqn:Es.
    + destruct (Hpush _ _ _ _ _ Hinv Es) as [Hi Hlt].
      eapply IH; [exact Hi|lia|exact Hl].
    + injection Hl as <- <-. done.
Qed.
End loop.

(** ** The sequence of loop iterations: state before each, and the item popped. *)
Section visits.
Context {S X : Type} (step : S → X → S * sres X).
Fixpoint visits (fuel : nat) (s : S) (stack : list X) : list (S * X) :=
  match stack with
  | [] => []
  | x :: rest =>
      match fuel with
      | O => []
      | Datatypes.S fuel =>
          (s, x) :: match step s x with
                    | (s', Push l) => visits fuel s' (l ++ rest)
                    | (_, Abort) => []
                    end
      end
  end.
Lemma visits_ind (Inv : list (S * X) → S → list X → Prop) (Q : list (S * X) → S → Prop) fuel vis s stack s' r :
  (∀ vis s x rest s' l, Inv vis s (x :: rest) → step s x = (s', Push l) →
     Inv (vis ++ [(s, x)]) s' (l ++ rest)) →
  (∀ vis s x rest s', Inv vis s (x :: rest) → step s x = (s', Abort) → Q (vis ++ [(s, x)]) s') →
  Inv vis s stack →
  loop step fuel s stack = (s', r) →
  match r with
  | LDone => Inv (vis ++ visits fuel s stack) s' []
  | LErr => Q (vis ++ visits fuel s stack) s'
  | LFuel => ∃ stack', Inv (vis ++ visits fuel s stack) s' stack'
  end.
Proof.
  intros Hpush Habort. revert vis s stack.
  induction fuel as [|fuel IH]; intros vis s stack Hinv Hl; destruct stack as [|x rest]; simpl in Hl |- *.
  - injection Hl as <- <-. by rewrite app_nil_r.
  - injection Hl as <- <-. rewrite app_nil_r. by eexists.
  - injection Hl as <- <-. by rewrite app_nil_r.
  - destruct (step s x) as [s1 [l|]] eqn:Es.
    + specialize (IH (vis ++ [(s, x)]) s1 (l ++ rest)). rewrite <-app_assoc in IH.
      apply IH; [|exact Hl]. by eapply Hpush.
    + injection Hl as <- <-. by eapply Habort.
Qed.
End visits.

(** ** Frontiers: a stack of handles such that none is an ancestor of another *)
Section frontier.
Context {K : Type} `{EqDecision K}.
Implicit Types (p q : list K) (stack : list (list K)).
Definition under stack q : Prop := Exists (λ p, p `prefix_of` q) stack.
Global Instance under_dec stack q : Decision (under stack q).
Proof. unfold under. apply _. Defined.
Definition antichain stack : Prop :=
  NoDup stack ∧ ∀ p q, p ∈ stack → q ∈ stack → p `prefix_of` q → p = q.

Lemma under_nil q : ¬ under [] q.
Proof. intros H. by apply Exists_nil in H. Qed.
Lemma under_cons p stack q : under (p :: stack) q ↔ p `prefix_of` q ∨ under stack q.
Proof. apply Exists_cons. Qed.
Lemma under_app l stack q : under (l ++ stack) q ↔ under l q ∨ under stack q.
Proof. apply Exists_app. Qed.
Lemma under_elem stack q : under stack q ↔ ∃ p, p ∈ stack ∧ p `prefix_of` q.
Proof. apply Exists_exists. Qed.
Lemma antichain_single p : antichain [p].
Proof. split; [apply NoDup_singleton|]. by intros ?? ->%elem_of_list_singleton ->%elem_of_list_singleton. Qed.

Lemma antichain_tail p rest : antichain (p :: rest) → antichain rest.
Proof. intros [H1 H2]. apply NoDup_cons in H1 as [_ H1]. split; [done|]. intros; apply H2; set_solver. Qed.
Lemma antichain_head p rest : antichain (p :: rest) → ¬ under rest p.
Proof.
  intros [H1 H2] H. apply NoDup_cons in H1 as [H1 _]. apply under_elem in H as (q&Hq&Hp).
  apply H1. rewrite <-(H2 q p); set_solver.
Qed.
Lemma antichain_head' p rest q : antichain (p :: rest) → p `prefix_of` q → ¬ under rest q.
Proof.
  intros Ha Hp Hu. apply under_elem in Hu as (r&Hr&Hq).
  pose proof Ha as [H1 H2]. apply NoDup_cons in H1 as [H1 _].
  destruct (prefix_weak_total _ _ _ Hp Hq) as [H|H].
  - apply H1. rewrite (H2 p r); set_solver.
  - apply H1. rewrite <-(H2 r p); set_solver.
Qed.

Lemma snoc_prefix_of p k q : p ++ [k] `prefix_of` q → p `prefix_of` q.
Proof. intros [r ->]. rewrite <-app_assoc. by apply prefix_app_r. Qed.

Lemma antichain_push p rest ks :
  antichain (p :: rest) → NoDup ks → antichain (((λ k, p ++ [k]) <$> ks) ++ rest).
Proof.
  intros Ha Hks. pose proof (antichain_tail _ _ Ha) as [Hr1 Hr2]. split.
  - apply NoDup_app. split_and!; [|  |done].
    + apply NoDup_fmap_2; [|done]. intros k k' H. by apply app_inv_head in H as [= ->].
    + intros q (k&->&Hk)%elem_of_list_fmap Hq.
      apply (antichain_head' p rest (p ++ [k])); [done|by apply prefix_app_r|].
      apply under_elem. exists (p ++ [k]). done.
  - intros x y Hx Hy Hp.
    apply elem_of_app in Hx as [(k&->&Hk)%elem_of_list_fmap|Hx];
    apply elem_of_app in Hy as [(k'&->&Hk')%elem_of_list_fmap|Hy].
    + apply prefix_app_inv in Hp. apply prefix_cons_inv_1 in Hp. by subst.
    + destruct (antichain_head' p rest y); [done|by eapply snoc_prefix_of|].
      apply under_elem. by exists y.
    + destruct (antichain_head' p rest (p ++ [k'])); [done|by apply prefix_app_r|].
      apply under_elem. by exists x.
    + by apply Hr2.
Qed.

Lemma under_push p rest ks q :
  antichain (p :: rest) →
  (∀ k r, q = p ++ k :: r → k ∈ ks) →
  under (((λ k, p ++ [k]) <$> ks) ++ rest) q ↔ under (p :: rest) q ∧ q ≠ p.
Proof.
  intros Ha Hks. rewrite under_app, under_cons. split.
  - intros [H|H].
    + apply under_elem in H as (x&(k&->&Hk)%elem_of_list_fmap&Hx). split.
      * left. by eapply snoc_prefix_of.
      * intros ->. destruct Hx as [r Hr]. apply (f_equal length) in Hr.
        rewrite !app_length in Hr. simpl in Hr. lia.
    + split; [by right|]. intros ->. by eapply antichain_head.
  - intros [[[[|k r] Hr]|H] Hne]; [|left|by right].
    + by rewrite app_nil_r in Hr.
    + apply under_elem. exists (p ++ [k]). split; [|exists r; by rewrite <-app_assoc].
      apply elem_of_list_fmap. exists k. split; [done|]. by eapply Hks.
Qed.
End frontier.
