(** * Base: byte strings, 32-bit event sets as [N], and bit-level tactics.

    Nothing here models /repo directly except [str] (Go string = byte sequence)
    and the bit operators used on [Event] (Go [uint32], /repo/event.go:20). *)
From Coq Require Export NArith Ascii.
From stdpp Require Export prelude gmap list strings.
From stdpp Require Import options.
Global Open Scope nat_scope.
Global Open Scope list_scope.

(** Go strings are byte sequences; slicing [s[:i]] is [take i s], [s[i:]] is [drop i s]. *)
Notation str := (list ascii).

(** Readable literals for examples: [b "abc"]. *)
Fixpoint bytes_of (s : string) : str :=
  match s with
  | EmptyString => []
  | String a s' => a :: bytes_of s'
  end.
Arguments bytes_of _%string_scope.
Notation b s := (bytes_of s).

(** ** Event sets.  [Event] is uint32 (/repo/event.go:20); we use [N].
    Go [x | y], [x & y], [x &^ y], [x ^ y] are lor, land, ldiff, lxor. *)
Notation "x .| y" := (N.lor x y) (at level 50, left associativity).
Notation "x .& y" := (N.land x y) (at level 40, left associativity).
Notation "x .&^ y" := (N.ldiff x y) (at level 40, left associativity).

(** Specification vocabulary: an event set as a set of bits. *)
Definition has (e : N) (i : N) : Prop := N.testbit e i = true.
Definition incl_ev (a c : N) : Prop := ∀ i, has a i → has c i.
Definition disj_ev (a c : N) : Prop := ∀ i, has a i → has c i → False.
Definition single_bit (e : N) : Prop := ∃ k, e = N.pow 2 k.

(** /repo/util.go:14  [const all = ^Event(0)] for uint32. *)
Definition all32 : N := 4294967295.
Definition u32 (e : N) : Prop := (e < 4294967296)%N.

(** ** Bit-level reasoning *)
Lemma land_eq_incl a c : a .& c = c ↔ incl_ev c a.
Proof.
  split.
  - intros H i Hi. unfold has in *. rewrite <-H, N.land_spec in Hi.
    by apply andb_true_iff in Hi as [? ?].
  - intros H. apply N.bits_inj. intros i. rewrite N.land_spec.
    specialize (H i). unfold has in H.
    destruct (N.testbit c i); [rewrite H by done; done|].
    apply andb_false_r.
Qed.
Lemma land_zero_disj a c : a .& c = 0%N ↔ disj_ev a c.
Proof.
  split.
  - intros H i Ha Hc. unfold has in *.
    assert (N.testbit (a .& c) i = true) as H1 by (by rewrite N.land_spec, Ha, Hc).
    rewrite H, N.bits_0 in H1. done.
  - intros H. apply N.bits_inj. intros i. rewrite N.land_spec, N.bits_0.
    specialize (H i). unfold has in H.
    destruct (N.testbit a i), (N.testbit c i); try done. by destruct H.
Qed.
Lemma zero_bits e : e = 0%N ↔ ∀ i, N.testbit e i = false.
Proof.
  split; [intros -> i; apply N.bits_0|].
  intros H. apply N.bits_inj. intros i. by rewrite H, N.bits_0.
Qed.
Lemma nonzero_bit e : e ≠ 0%N ↔ ∃ i, has e i.
Proof.
  split.
  - intros H. exists (N.log2 e). unfold has. by apply N.bit_log2.
  - intros [i Hi] ->. unfold has in Hi. by rewrite N.bits_0 in Hi.
Qed.
Lemma u32_bits e : u32 e → ∀ i, has e i → (i < 32)%N.
Proof.
  intros H i Hi. unfold u32, has in *.
  destruct (N.lt_ge_cases i 32) as [|Hge]; [done|].
  destruct (N.eq_dec e 0) as [->|Hne]; [by rewrite N.bits_0 in Hi|].
  rewrite N.bits_above_log2 in Hi; [done|].
  eapply N.lt_le_trans; [|exact Hge].
  apply N.log2_lt_pow2; [lia|]. exact H.
Qed.
Lemma bits_u32 e : (∀ i, has e i → (i < 32)%N) → u32 e.
Proof.
  intros H. unfold u32.
  destruct (N.eq_dec e 0) as [->|Hne]; [lia|].
  change 4294967296%N with (2 ^ 32)%N.
  apply N.log2_lt_pow2; [lia|]. apply H. unfold has. by apply N.bit_log2.
Qed.
Lemma all32_spec i : N.testbit all32 i = (i <? 32)%N.
Proof. change all32 with (N.ones 32). rewrite N.ones_spec_iff || idtac.
  destruct (N.ltb_spec i 32).
  - by apply N.ones_spec_low.
  - by apply N.ones_spec_high.
Qed.

(** [bits]: prove equalities / inclusions of event sets pointwise.  It specialises
    every hypothesis that is an equation or inclusion between event sets at the
    bit under consideration and finishes by case analysis on the atoms. *)
Lemma eq_at (a c : N) : a = c → ∀ i, N.testbit a i = N.testbit c i.
Proof. by intros ->. Qed.
Lemma incl_at (a c : N) : incl_ev a c → ∀ i, implb (N.testbit a i) (N.testbit c i) = true.
Proof. intros H i. specialize (H i). unfold has in H. destruct (N.testbit a i); [|done]. by rewrite H. Qed.
Lemma disj_at (a c : N) : disj_ev a c → ∀ i, N.testbit a i && N.testbit c i = false.
Proof. intros H i. specialize (H i). unfold has in H.
  destruct (N.testbit a i), (N.testbit c i); try done. by destruct H. Qed.
Lemma incl_intro (a c : N) : (∀ i, implb (N.testbit a i) (N.testbit c i) = true) → incl_ev a c.
Proof. intros H i Hi. specialize (H i). unfold has in *. rewrite Hi in H. done. Qed.
Lemma disj_intro (a c : N) : (∀ i, N.testbit a i && N.testbit c i = false) → disj_ev a c.
Proof. intros H i H1 H2. specialize (H i). unfold has in *. by rewrite H1, H2 in H. Qed.

Ltac bits_at i :=
  repeat match goal with
  | H : @eq N _ _ |- _ => apply eq_at with (i := i) in H
  | H : incl_ev _ _ |- _ => apply incl_at with (i := i) in H
  | H : disj_ev _ _ |- _ => apply disj_at with (i := i) in H
  end;
  repeat match goal with
  | H : context [N.testbit _ i] |- _ =>
    progress rewrite ?N.lor_spec, ?N.land_spec, ?N.ldiff_spec, ?N.lxor_spec, ?N.bits_0 in H
  end;
  repeat (progress rewrite ?N.lor_spec, ?N.land_spec, ?N.ldiff_spec, ?N.lxor_spec, ?N.bits_0);
  repeat match goal with
  | |- context [N.testbit ?x i] => is_var x; destruct (N.testbit x i) eqn:?
  | |- context [N.testbit ?x i] => destruct (N.testbit x i) eqn:?
  | H : context [N.testbit ?x i] |- _ =>
    match type of H with
    | N.testbit x i = _ => fail 1
    | _ => destruct (N.testbit x i) eqn:?
    end
  end; simpl in *; try done; try congruence.

Ltac bits :=
  lazymatch goal with
  | |- @eq N _ _ => apply N.bits_inj; let i := fresh "i" in intros i; bits_at i
  | |- incl_ev _ _ => apply incl_intro; let i := fresh "i" in intros i; bits_at i
  | |- disj_ev _ _ => apply disj_intro; let i := fresh "i" in intros i; bits_at i
  end.

Lemma has_lor a c i : has (a .| c) i ↔ has a i ∨ has c i.
Proof. unfold has. rewrite N.lor_spec, orb_true_iff. done. Qed.
Lemma has_land a c i : has (a .& c) i ↔ has a i ∧ has c i.
Proof. unfold has. rewrite N.land_spec, andb_true_iff. done. Qed.
Lemma has_ldiff a c i : has (a .&^ c) i ↔ has a i ∧ ¬ has c i.
Proof. unfold has. rewrite N.ldiff_spec, andb_true_iff, negb_true_iff.
  destruct (N.testbit c i); naive_solver. Qed.
Lemma has_0 i : ¬ has 0 i.
Proof. unfold has. by rewrite N.bits_0. Qed.
Lemma has_ext a c : (∀ i, has a i ↔ has c i) → a = c.
Proof. intros H. apply N.bits_inj. intros i. specialize (H i). unfold has in H.
  destruct (N.testbit a i), (N.testbit c i); naive_solver. Qed.
Lemma has_dec e i : Decision (has e i).
Proof. unfold has. apply _. Defined.
Global Existing Instance has_dec.
