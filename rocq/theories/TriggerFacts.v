(** * TriggerFacts: bits. *)
From Verif Require Import Base Event Paths Trigger SpecTrigger.
Local Open Scope N_scope.

Lemma tb_pow e k : nonzero (e .& 2 ^ k) = N.testbit e k.
Proof.
  destruct (N.testbit e k) eqn:H.
  - apply negb_true_iff, N.eqb_neq. intros H0. apply (f_equal (λ x, N.testbit x k)) in H0.
    rewrite N.land_spec, H, N.pow2_bits_true, N.bits_0 in H0. done.
  - apply negb_false_iff, N.eqb_eq. apply N.bits_inj. intros i. rewrite N.land_spec, N.bits_0, N.pow2_bits_eqb.
    destruct (N.eqb_spec k i) as [<-|]; [by rewrite H|apply andb_false_r].
Qed.
Lemma nz_iff x : x ≠ 0 ↔ nonzero x = true.
Proof. by rewrite negb_true_iff, N.eqb_neq. Qed.
Lemma small_bits (Q : N → Prop) : (∀ n, (n < 32)%nat → Q (N.of_nat n)) → (∀ i, 32 <= i → Q i) → ∀ i, Q i.
Proof.
  intros H1 H2 i. destruct (N.lt_ge_cases i 32) as [H|H]; [|by apply H2].
  rewrite <-(N2Nat.id i). apply H1. lia.
Qed.
Lemma big_bit c i : c < 2 ^ 32 → 32 <= i → N.testbit c i = false.
Proof.
  intros Hc Hi. destruct (N.testbit c i) eqn:H; [|done]. pose proof (u32_bits c Hc i H). lia.
Qed.

Lemma kq_encode_bit e d i : N.testbit (kq_encode e d) i =
  (N.testbit e i && negb (N.testbit 0xf00 i)) || (((N.testbit e 8 && d) || N.testbit e 10) && (i =? 1)) ||
  (N.testbit e 11 && (i =? 5)) || (N.testbit e 9 && (i =? 0)).
Proof.
  unfold kq_encode. cbv zeta.
  change (Create kqueue) with (2 ^ 8). change (Remove kqueue) with (2 ^ 9). change (Write kqueue) with (2 ^ 10). change (Rename kqueue) with (2 ^ 11).
  rewrite !tb_pow. change NoteWrite with (2 ^ 1). change NoteRename with (2 ^ 5). change NoteDelete with (2 ^ 0).
  revert i. apply small_bits.
  - intros n Hn.
    destruct (N.testbit e 8) eqn:H8, (N.testbit e 9) eqn:H9, (N.testbit e 10) eqn:H10, (N.testbit e 11) eqn:H11, d; cbn [andb orb];
    repeat (progress rewrite ?N.lor_spec, ?N.ldiff_spec);
    (do 32 (destruct n as [|n]; [cbn [N.of_nat Pos.of_succ_nat Pos.succ]; rewrite ?H8, ?H9, ?H10, ?H11;
       repeat match goal with |- context [N.testbit e ?k] => destruct (N.testbit e k) end; done|])); lia.
  - intros i Hi. assert (∀ c, c < 2 ^ 32 → N.testbit c i = false) as K by (intros; by apply big_bit).
    assert (∀ k, k < 32 → (i =? k) = false) as K2 by (intros k Hk; apply N.eqb_neq; lia).
    rewrite (K 0xf00), !K2 by done. rewrite !andb_false_r, !orb_false_r, andb_true_r.
    destruct (N.testbit e 8 && d || N.testbit e 10), (N.testbit e 11), (N.testbit e 9);
    repeat (progress rewrite ?N.lor_spec, ?N.ldiff_spec); rewrite ?(K (2 ^ 8)), ?(K (2 ^ 9)), ?(K (2 ^ 10)), ?(K (2 ^ 11)), ?(K (2 ^ 1)), ?(K (2 ^ 5)), ?(K (2 ^ 0)) by done;
    by destruct (N.testbit e i).
Qed.
Lemma fen_encode_bit e d i : N.testbit (fen_encode e d) i =
  (N.testbit e i && N.testbit 0x9ffff08f i && (i <? 32)) || (((N.testbit e 8 && d) || N.testbit e 10) && (i =? 1)).
Proof.
  unfold fen_encode. cbv zeta.
  change (Create fen) with (2 ^ 8). change (Write fen) with (2 ^ 10).
  rewrite !tb_pow. change FileModified with (2 ^ 1). rewrite N.land_spec.
  revert i. apply small_bits.
  - intros n Hn.
    destruct (N.testbit e 8) eqn:H8, (N.testbit e 10) eqn:H10, d; cbn [andb orb];
    repeat (progress rewrite ?N.lor_spec, ?N.ldiff_spec);
    (do 32 (destruct n as [|n]; [cbn [N.of_nat Pos.of_succ_nat Pos.succ]; rewrite ?H8, ?H10;
       repeat match goal with |- context [N.testbit e ?k] => destruct (N.testbit e k) end; done|])); lia.
  - intros i Hi. assert (∀ c, c < 2 ^ 32 → N.testbit c i = false) as K by (intros; by apply big_bit).
    assert (∀ k, k < 32 → (i =? k) = false) as K2 by (intros k Hk; apply N.eqb_neq; lia).
    rewrite (K (_ .&^ MountedOver)), (K 0x9ffff08f), !K2 by done. by rewrite !andb_false_r.
Qed.

(** ** C49: asking *)
Lemma implied_bool (l : list (N * N)) (e i : N) :
  (∃ r f, (r, f) ∈ l ∧ e .& r ≠ 0 ∧ has f i) ↔ existsb (λ x, nonzero (e .& x.1) && N.testbit x.2 i) l = true.
Proof.
  rewrite existsb_exists. split.
  - intros (r&f&H1&H2&H3). exists (r, f). rewrite <-elem_of_list_In. split; [done|]. cbn. apply nz_iff in H2. rewrite H2. done.
  - intros ([r f]&H1&H2). apply andb_true_iff in H2 as [H2 H3]. exists r, f. rewrite elem_of_list_In. split; [done|]. split; [|done]. by apply nz_iff.
Qed.
Lemma kq_implied e d i : existsb (λ x, nonzero (e .& x.1) && N.testbit x.2 i) (implied kq d) =
  ((N.testbit e 8 && d || N.testbit e 10) && (i =? 1)) || (N.testbit e 11 && (i =? 5)) || (N.testbit e 9 && (i =? 0)).
Proof.
  unfold implied, counterpart. cbn [t_plat t_write t_rename t_remove kq app].
  change (Create kqueue) with (2 ^ 8). change (Remove kqueue) with (2 ^ 9). change (Write kqueue) with (2 ^ 10). change (Rename kqueue) with (2 ^ 11).
  change NoteWrite with (2 ^ 1). change NoteRename with (2 ^ 5). change NoteDelete with (2 ^ 0).
  destruct d; cbn [existsb fst snd]; rewrite !tb_pow, !N.pow2_bits_eqb, (N.eqb_sym 0), (N.eqb_sym 1), (N.eqb_sym 5);
  destruct (N.testbit e 8), (N.testbit e 9), (N.testbit e 10), (N.testbit e 11), (i =? 0), (i =? 1), (i =? 5); done.
Qed.
Lemma fen_implied e d i : existsb (λ x, nonzero (e .& x.1) && N.testbit x.2 i) (implied fn d) =
  ((N.testbit e 8 && d || N.testbit e 10) && (i =? 1)) || (N.testbit e 11 && (i =? 6)) || (N.testbit e 9 && (i =? 4)).
Proof.
  unfold implied, counterpart. cbn [t_plat t_write t_rename t_remove fn app].
  change (Create fen) with (2 ^ 8). change (Remove fen) with (2 ^ 9). change (Write fen) with (2 ^ 10). change (Rename fen) with (2 ^ 11).
  change FileModified with (2 ^ 1). change FileRenameFrom with (2 ^ 6). change FileDelete with (2 ^ 4).
  destruct d; cbn [existsb fst snd]; rewrite !tb_pow, !N.pow2_bits_eqb, (N.eqb_sym 4), (N.eqb_sym 1), (N.eqb_sym 6);
  destruct (N.testbit e 8), (N.testbit e 9), (N.testbit e 10), (N.testbit e 11), (i =? 4), (i =? 1), (i =? 6); done.
Qed.
Lemma kq_encode_spec e d i : has (kq_encode e d) i ↔ native_bit kq d e i.
Proof.
  unfold native_bit. rewrite implied_bool, kq_implied. unfold has. rewrite kq_encode_bit.
  change (All (t_plat kq)) with 0xf00. change (exceptions kq) with 0. rewrite N.bits_0.
  destruct (N.testbit e i), (N.testbit 0xf00 i); cbn; rewrite ?orb_true_iff;
    destruct ((N.testbit e 8 && d || N.testbit e 10) && (i =? 1)), (N.testbit e 11 && (i =? 5)), (N.testbit e 9 && (i =? 0)); cbn; intuition congruence.
Qed.
Lemma fen_encode_spec e d i : u32 e → has (fen_encode e d) i ↔ native_bit fn d e i.
Proof.
  intros Hu. unfold native_bit. rewrite implied_bool, fen_implied. pose proof (u32_bits e Hu i) as Hi. unfold has in *. rewrite fen_encode_bit.
  change (All (t_plat fn)) with 0xf00. change (exceptions fn) with 0x60000070.
  destruct (N.ltb_spec i 32) as [Hlt|Hge].
  - clear Hi. rewrite <-(N2Nat.id i). assert (N.to_nat i < 32)%nat as Hn by lia. clear Hlt. generalize dependent (N.to_nat i). clear i.
    intros n Hn. do 32 (destruct n as [|n]; [cbn [N.of_nat Pos.of_succ_nat Pos.succ];
      repeat match goal with |- context [N.testbit e ?k] => destruct (N.testbit e k) eqn:? end; destruct d; vm_compute; intuition congruence|]). lia.
  - destruct (N.testbit e i) eqn:He; [pose proof (Hi eq_refl); lia|].
    assert (∀ k, k < 32 → (i =? k) = false) as K2 by (intros k Hk; apply N.eqb_neq; lia). rewrite !K2 by done.
    rewrite !andb_false_r. cbn. intuition congruence.
Qed.

(** ** C49: telling *)
Definition step_bits (o w : N) (x : N * N) : N := if nonzero (o .& x.1) then (if nonzero (w .& x.1) then x.1 else 0) .| (if nonzero (w .& x.2) then x.2 else 0) else 0.
Lemma decode_step_eq o w e x : decode_step o w e x = e .| step_bits o w x.
Proof.
  destruct x as [f n]. unfold decode_step, step_bits. cbn [fst snd].
  destruct (nonzero (o .& f)), (nonzero (w .& f)), (nonzero (w .& n)); rewrite ?N.lor_0_r, ?N.lor_0_l, ?N.lor_assoc; done.
Qed.
Lemma decode_has m o w i : has (decode m o w) i ↔
  ∃ f n, (f, n) ∈ m ∧ o .& f ≠ 0 ∧ ((w .& f ≠ 0 ∧ has f i) ∨ (w .& n ≠ 0 ∧ has n i)).
Proof.
  unfold decode.
  assert (∀ e, has (foldl (decode_step o w) e m) i ↔ has e i ∨ ∃ f n, (f, n) ∈ m ∧ o .& f ≠ 0 ∧ ((w .& f ≠ 0 ∧ has f i) ∨ (w .& n ≠ 0 ∧ has n i))) as H.
  { induction m as [|[f n] m IH]; intros e; cbn [foldl].
    - split; [by left|]. intros [H|(f&n&H&_)]; [done|by apply elem_of_nil in H].
    - rewrite IH, decode_step_eq, has_lor. unfold step_bits. cbn [fst snd].
      setoid_rewrite elem_of_cons.
      assert (has (if nonzero (o .& f) then (if nonzero (w .& f) then f else 0) .| (if nonzero (w .& n) then n else 0) else 0) i ↔
              o .& f ≠ 0 ∧ ((w .& f ≠ 0 ∧ has f i) ∨ (w .& n ≠ 0 ∧ has n i))) as ->.
      { rewrite !nz_iff. pose proof (has_0 i). destruct (nonzero (o .& f)), (nonzero (w .& f)), (nonzero (w .& n)); rewrite ?has_lor; intuition congruence. }
      split.
      + intros [[?|?]|(f'&n'&?&?)]; [by left|right; exists f, n; by auto|right; exists f', n'; by auto].
      + intros [?|(f'&n'&[[= -> ->]|?]&?)]; [by left; left|by left; right|right; by exists f', n']. }
  rewrite H. split; [intros [?|?]; [by destruct (has_0 i)|done]|by right].
Qed.
Lemma in_bool {X} `{EqDecision X} (x : X) (l : list X) : x ∈ l ↔ existsb (λ y, bool_decide (y = x)) l = true.
Proof.
  rewrite existsb_exists. split.
  - intros H. exists x. rewrite <-elem_of_list_In. split; [done|]. by apply bool_decide_eq_true.
  - intros (y&H&Hy). apply bool_decide_eq_true in Hy as ->. by apply elem_of_list_In.
Qed.
Definition known_trig (T : trig) : Prop := T = kq ∨ T = fn.
Lemma nat2not_spec T f n : known_trig T → (f, n) ∈ t_nat2not T → f ∈ natives T ∧ (n = 0 ∨ (n, f) ∈ counterpart T).
Proof.
  intros [-> | ->] H; cbn [t_nat2not kq fn] in H; unfold kq_nat2not, fen_nat2not in H; rewrite !elem_of_cons, elem_of_nil in H;
  (repeat destruct H as [H|H]; try done); apply pair_equal_spec in H as [-> ->]; rewrite !in_bool;
  (split; [by vm_compute|]); first [by left | right; by vm_compute].
Qed.
Lemma natives_spec T f : known_trig T → f ∈ natives T → ∃ n, (f, n) ∈ t_nat2not T.
Proof.
  intros [-> | ->] H; [change (natives kq) with kq_natives in H|change (natives fn) with fen_natives in H]; unfold kq_natives, fen_natives in H; rewrite !elem_of_cons, elem_of_nil in H;
  (repeat destruct H as [H|H]; try done); subst f; eexists; rewrite elem_of_list_In; cbn [t_nat2not kq fn kq_nat2not fen_nat2not In];
  repeat (first [by left | right]).
Qed.
Lemma counterpart_spec T f n : known_trig T → (n, f) ∈ counterpart T → (f, n) ∈ t_nat2not T.
Proof.
  intros [-> | ->] H; unfold counterpart in H; cbn [t_plat t_write t_rename t_remove kq fn] in H; rewrite !elem_of_cons, elem_of_nil in H;
  (repeat destruct H as [H|H]; try done); apply pair_equal_spec in H as [-> ->]; rewrite in_bool; by vm_compute.
Qed.
Lemma decode_spec T o w i : known_trig T →
  has (decode (t_nat2not T) o w) i ↔ ∃ x, reported T o x ∧ w .& x ≠ 0 ∧ has x i.
Proof.
  intros HT. rewrite decode_has. unfold reported. split.
  - intros (f&n&Hin&Ho&H). destruct (nat2not_spec T f n HT Hin) as [Hf Hn]. destruct H as [[Hw Hi]|[Hw Hi]].
    + exists f. auto.
    + exists n. split; [|done]. right. exists f. destruct Hn as [->|Hn]; [by destruct (has_0 i)|done].
  - intros (x&[[Hx Ho]|(f&Hx&Ho)]&Hw&Hi).
    + destruct (natives_spec T x HT Hx) as [n Hn]. exists x, n. auto.
    + exists f, x. split; [by apply counterpart_spec|]. auto.
Qed.
Lemma reported_single T o x : known_trig T → reported T o x → ∃ k, x = 2 ^ k.
Proof.
  intros HT Hx.
  assert (x ∈ natives T ++ (counterpart T).*1) as H.
  { apply elem_of_app. destruct Hx as [[? _]|(f&?&_)]; [by left|right]. apply elem_of_list_fmap. by exists (x, f). }
  assert (x = 2 ^ N.log2 x) as Hl; [|by exists (N.log2 x)].
  clear Hx. revert x H. apply Forall_forall. destruct HT as [-> | ->]; vm_compute; repeat constructor.
Qed.
Lemma decode_incl T o w : known_trig T → incl_ev (decode (t_nat2not T) o w) w.
Proof.
  intros HT i (x&Hx&Hw&Hi)%(decode_spec T o w i HT). destruct (reported_single T o x HT Hx) as [k ->].
  unfold has in *. rewrite N.pow2_bits_eqb in Hi. apply N.eqb_eq in Hi as <-. apply nz_iff in Hw. by rewrite tb_pow in Hw.
Qed.
Lemma decode_perm m1 m2 o w : m1 ≡ₚ m2 → decode m1 o w = decode m2 o w.
Proof. intros H. apply has_ext. intros i. rewrite !decode_has. by setoid_rewrite H. Qed.
