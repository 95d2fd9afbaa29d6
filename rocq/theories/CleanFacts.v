(** * CleanFacts: proofs about Clean.v *)
From Verif Require Import Base Event Paths PathsFacts Loop Clean SpecClean.

(** ** splits and joins *)
Lemma splits_nonempty s : splits s ≠ [].
Proof. destruct s as [|c s]; [done|]. cbn. destruct (Ascii.eqb c slash); [done|]. by destruct (splits s). Qed.
Lemma splits_app x y : splits (x ++ slash :: y) = splits x ++ splits y.
Proof.
  induction x as [|c x IH]; [done|]. cbn. rewrite IH. destruct (Ascii.eqb c slash); [done|].
  destruct (splits x) eqn:E; [by apply splits_nonempty in E|]. done.
Qed.
Lemma splits_noslash x : slash ∉ x → splits x = [x].
Proof.
  induction x as [|c x IH]; [done|]. intros Hn. apply not_elem_of_cons in Hn as [Hc Hx]. cbn.
  destruct (Ascii.eqb_spec c slash) as [->|]; [done|]. by rewrite IH.
Qed.
Lemma splits_slash x y : splits (x ++ slash :: y) = splits x ++ splits y.
Proof. apply splits_app. Qed.
Lemma splits_pieces s : Forall (λ c, slash ∉ c) (splits s).
Proof.
  induction s as [|c s IH]; cbn; [constructor; [by apply not_elem_of_nil|done]|].
  destruct (Ascii.eqb_spec c slash) as [->|Hne]; [constructor; [by apply not_elem_of_nil|done]|].
  destruct (splits s) as [|x l] eqn:E; [by apply splits_nonempty in E|]. inversion_clear IH as [|? ? Hx Hl].
  constructor; [|done]. apply not_elem_of_cons. split; [by intros <-|done].
Qed.
(** Splitting at the next separator at or after position [i]. *)
Lemma indexSep_cut p i :
  match indexSep slash (drop i p) with
  | None => slash ∉ drop i p
  | Some k => ∃ c r, drop i p = c ++ slash :: r ∧ slash ∉ c ∧ length c = k
  end.
Proof.
  generalize (drop i p) as s. induction s as [|c s IH]; cbn; [by apply not_elem_of_nil|].
  destruct (Ascii.eqb_spec c slash) as [->|Hne]; [exists [], s; split_and!; [done|by apply not_elem_of_nil|done]|].
  destruct (indexSep slash s) as [k|]; cbn.
  - destruct IH as (c'&r&->&Hc'&<-). exists (c :: c'), r. split_and!; [done| |done]. apply not_elem_of_cons. split; [by intros <-|done].
  - apply not_elem_of_cons. split; [by intros <-|done].
Qed.

(** ** Resolution *)
Lemma kwalk_app fs f d cs cs' d' : kwalk fs (λ _ _, None) d cs = Some d' → kwalk fs f d (cs ++ cs') = kwalk fs f d' cs'.
Proof.
  revert d. induction cs as [|c cs IH]; intros d; cbn; [by intros [= ->]|].
  destruct (look fs d c) as [[| |s]|]; try done; apply IH.
Qed.
Lemma kres_eq fs n : kres fs n = kwalk fs (match n with O => λ _ _, None | S n => kres fs n end).
Proof. by destruct n. Qed.
Lemma kres_app fs n d cs cs' d' : kres fs 0 d cs = Some d' → kres fs n d (cs ++ cs') = kres fs n d' cs'.
Proof. rewrite !kres_eq. apply kwalk_app. Qed.
Lemma kwalk_mono fs (f g : path → list str → option path) : (∀ d cs q, f d cs = Some q → g d cs = Some q) →
  ∀ cs d q, kwalk fs f d cs = Some q → kwalk fs g d cs = Some q.
Proof.
  intros Hfg. induction cs as [|c cs IH]; intros d q; cbn; [done|].
  destruct (look fs d c) as [[| |s]|]; try done; [apply IH..|apply Hfg].
Qed.
Lemma kres_S fs n : ∀ d cs q, kres fs n d cs = Some q → kres fs (S n) d cs = Some q.
Proof.
  induction n as [|n IH]; intros d cs q; cbn [kres]; [by apply kwalk_mono|]. apply kwalk_mono, IH.
Qed.
Lemma kres_le fs n m d cs q : n ≤ m → kres fs n d cs = Some q → kres fs m d cs = Some q.
Proof. intros Hle. induction Hle; [done|]. intros H. by apply kres_S, IHHle. Qed.
Lemma kres_det fs n m d cs q q' : kres fs n d cs = Some q → kres fs m d cs = Some q' → q = q'.
Proof.
  intros H1 H2. apply (kres_le _ _ (n `max` m)) in H1; [|lia]. apply (kres_le _ _ (n `max` m)) in H2; [|lia]. congruence.
Qed.
Lemma resolves_app fs d cs cs' d' q : kres fs 0 d cs = Some d' → resolves fs d (cs ++ cs') q ↔ resolves fs d' cs' q.
Proof. intros H. unfold resolves. split; intros [n Hn]; exists n; revert Hn; by rewrite (kres_app _ _ _ _ _ _ H). Qed.
Lemma resolves_link fs d c s cs q : look fs d c = Some (KLink s) →
  resolves fs d (c :: cs) q ↔ resolves fs (if isabs s then [] else d) (splits s ++ cs) q.
Proof.
  intros Hl. split.
  - intros [n Hn]. rewrite kres_eq in Hn. cbn in Hn. rewrite Hl in Hn. destruct n as [|n]; [done|]. by exists n.
  - intros [n Hn]. exists (S n). cbn. by rewrite Hl.
Qed.
Lemma resolves_root fs cs q : fs !! [] = Some KDir → resolves fs [] ([] :: cs) q ↔ resolves fs [] cs q.
Proof. intros Hr. apply (resolves_app fs [] [[]] cs []). cbn. unfold look. by rewrite Hr. Qed.

Lemma removelast_prefix {A} (l : list A) : removelast l `prefix_of` l.
Proof. destruct l as [|x l _] using rev_ind; [done|]. rewrite removelast_last. by exists [x]. Qed.
Lemma go_real fs d c k : real fs d → slash ∉ c → look fs d c = Some k → (∀ s, k ≠ KLink s) → real fs (go d c).
Proof.
  intros Hd0 Hsc Hl Hnl. pose proof Hd0 as (Hk&Hpre&Hc). unfold look in Hl. destruct (fs !! d) as [[| |]|] eqn:Ed; try done.
  2: { destruct (decide (c = [])) as [->|]; [|done]. unfold go. rewrite decide_True by auto. exact Hd0. }
  unfold go.
  destruct (decide (c = [] ∨ c = dot)) as [|H1]; [exact Hd0|].
  destruct (decide (c = dotdot)) as [->|H2].
  - destruct (decide (d = [])) as [->|Hd]; [exact Hd0|].
    assert (removelast d `prefix_of` d ∧ removelast d ≠ d) as [Hp Hne].
    { split; [apply removelast_prefix|]. destruct d as [|x d _] using rev_ind; [done|]. rewrite removelast_last.
      intros Heq. apply (f_equal length) in Heq. rewrite app_length in Heq. simpl in Heq. lia. }
    split_and!.
    + exists KDir. split; [by apply Hpre|done].
    + intros q' Hq' Hne'. apply Hpre; [by etrans|]. intros ->. apply Hne.
      by apply (anti_symm prefix).
    + destruct Hp as [x Hx]. rewrite Hx in Hc. by apply Forall_app in Hc as [? _].
  - rewrite decide_False in Hl by naive_solver. split_and!; [by exists k| |].
    + intros q' [x Hx] Hne. destruct x as [|y x _] using rev_ind; [rewrite app_nil_r in Hx; congruence|].
      rewrite app_assoc in Hx. apply app_inj_tail in Hx as [Hx _]. destruct (decide (q' = d)) as [->|]; [done|].
      apply Hpre; [by exists x|done].
    + apply Forall_app. split; [done|]. constructor; [naive_solver|constructor].
Qed.
Lemma clean_go d c : Forall (λ c, c ≠ [] ∧ c ≠ dot ∧ c ≠ dotdot ∧ slash ∉ c) d →
  clean_step true (reverse d) c = reverse (go d c).
Proof.
  intros Hd. unfold clean_step, go. destruct (decide (c = [] ∨ c = dot)); [done|]. destruct (decide (c = dotdot)) as [->|].
  - destruct d as [|x d _] using rev_ind; [done|]. rewrite removelast_last, reverse_app. cbn.
    apply Forall_app in Hd as [_ Hx]. inversion_clear Hx as [|? ? (?&?&Hdd&?)]. by rewrite decide_False.
  - by rewrite reverse_app.
Qed.
Lemma kres0_real fs : ∀ cs d q, Forall (λ c, slash ∉ c) cs → real fs d → kres fs 0 d cs = Some q →
  real fs q ∧ foldl (clean_step true) (reverse d) cs = reverse q.
Proof.
  induction cs as [|c cs IH]; intros d q Hcs Hd; cbn; [by intros [= ->]|]. inversion_clear Hcs as [|? ? Hc Hcs'].
  destruct (look fs d c) as [[| |s]|] eqn:El; [..|done|done]; intros H; (rewrite clean_go by apply Hd);
    (eapply IH; [done| |done]); eapply go_real; naive_solver.
Qed.
Lemma real_root fs : fs !! [] = Some KDir → real fs [].
Proof.
  intros Hr. split_and!; [exists KDir; done| |constructor]. intros q' [x Hx] Hne. destruct q'; done.
Qed.
Lemma joins_render x l : slash :: joins (x :: l) = render slash (x :: l).
Proof. revert x. induction l as [|y l IH]; intros x; [cbn; by rewrite app_nil_r|]. cbn [render]. f_equal. cbn [joins]. f_equal. exact (IH y). Qed.
Lemma clean_plain fs p q : fs !! [] = Some KDir → isabs p = true → kres fs 0 [] (splits p) = Some q → clean p = topath q ∧ real fs q.
Proof.
  intros Hr Ha Hk. destruct (kres0_real fs _ _ _ (splits_pieces p) (real_root fs Hr) Hk) as [Hq Hc].
  split; [|done]. unfold clean, clean_comps. rewrite Ha. cbn in Hc. change (reverse (@nil str)) with (@nil str) in Hc.
  rewrite Hc, reverse_involutive. destruct q as [|x q]; [done|]. apply joins_render.
Qed.

(** ** The loop *)
Lemma canon_step_depth fs x y : canon_step fs x = CNext y → c_depth y = S (c_depth x) ∧ c_calls y = S (c_calls x) ∧ c_depth x ≤ 128.
Proof.
  destruct x as [p i dp n]. unfold canon_step. destruct (negb (i <? length p)); [done|].
  destruct (128 <? dp) eqn:Ed; [done|]. apply Nat.ltb_ge in Ed.
  destruct (lstat _ _) as [[| |s]|]; [..|done]; try (intros [= <-]; cbn; lia).
  destruct (readlink _ _); [|done]. intros [= <-]. cbn. lia.
Qed.
Lemma canon_step_stop fs x : 128 < c_depth x → ∃ q, canon_step fs x = COk q ∨ canon_step fs x = CFail EDepth.
Proof.
  destruct x as [p i dp n]. cbn [c_depth]. intros Hd. unfold canon_step. destruct (negb (i <? length p)); [exists (clean p); by left|].
  apply Nat.ltb_lt in Hd. rewrite Hd. exists []. by right.
Qed.
Lemma canon_step_noabs fs x : canon_step fs x ≠ CFail EAbs.
Proof.
  destruct x as [p i dp n]. unfold canon_step. destruct (negb (i <? length p)); [done|]. destruct (128 <? dp); [done|].
  destruct (lstat _ _) as [[| |s]|]; try done. by destruct (readlink _ _).
Qed.
Lemma canon_loop_done fs fuel : ∀ x, 130 ≤ fuel + c_depth x → 0 < fuel → ∃ r, canon_loop fs fuel x = Some r.
Proof.
  induction fuel as [|fuel IH]; intros x Hf Hp; [lia|]. cbn. destruct (canon_step fs x) as [y|q|e] eqn:Es; [|by eexists..].
  apply canon_step_depth in Es as (Hd&_&Hle). apply IH; lia.
Qed.
Lemma canon_loop_mono fs fuel : ∀ x r fuel', canon_loop fs fuel x = Some r → fuel ≤ fuel' → canon_loop fs fuel' x = Some r.
Proof.
  induction fuel as [|fuel IH]; intros x r fuel' Hl Hle; [done|]. destruct fuel' as [|fuel']; [lia|]. cbn in *.
  destruct (canon_step fs x); try done. apply IH; [done|lia].
Qed.

(** The two kinds of loop states: [i] is at the start of a piece and everything
    before it resolves without a symlink; or the state right after a relative link
    was substituted, in which [i = 2] points into the first piece. *)
Inductive cinv (fs : fsys) (p : str) : nat → Prop :=
  | cinv_good a r d : p = a ++ slash :: r → kres fs 0 [] (splits a) = Some d → cinv fs p (S (length a))
  | cinv_end d : kres fs 0 [] (splits p) = Some d → cinv fs p (S (length p))
  | cinv_second c r k :
      p = slash :: c ++ r → slash ∉ c → c ≠ [] → r = [] ∨ (∃ r', r = slash :: r') →
      look fs [] c = Some k → (∀ s, k ≠ KLink s) → cinv fs p 2.

Lemma look_root fs : fs !! [] = Some KDir → look fs [] [] = Some KDir.
Proof. intros Hr. unfold look. rewrite Hr. by rewrite decide_True by auto. Qed.
Lemma kres_root fs n cs : fs !! [] = Some KDir → kres fs n [] ([] :: cs) = kres fs n [] cs.
Proof. intros Hr. rewrite kres_eq. cbn [kwalk]. rewrite look_root by done. unfold go. by rewrite decide_True by auto. Qed.
Lemma kres_slash fs : fs !! [] = Some KDir → kres fs 0 [] (splits [slash]) = Some [].
Proof. intros Hr. change (splits [slash]) with ([[]; []] : list str). by rewrite !kres_root. Qed.
Lemma look_empty fs d : real fs d → kres fs 0 d (splits []) = Some d.
Proof.
  intros ((k&Hk&Hnl)&_). cbn. unfold look. rewrite Hk. destruct k as [| |s]; [rewrite decide_True by auto; done|done|by destruct (Hnl s)].
Qed.
Lemma kres0_40 fs d cs q : kres fs 0 d cs = Some q → kres fs 40 d cs = Some q.
Proof. apply kres_le. lia. Qed.
Lemma lstat_at fs a c d : kres fs 0 [] (splits a) = Some d → slash ∉ c →
  lstat fs (a ++ slash :: c) = look fs d c.
Proof.
  intros Hk Hc. unfold lstat. rewrite splits_app, (splits_noslash c) by done.
  rewrite removelast_last, List.last_last. by rewrite (kres0_40 _ _ _ _ Hk).
Qed.
Lemma look_slash fs d c k : real fs d → look fs d c = Some k → ∀ s, k = KLink s → fs !! (d ++ [c]) = Some (KLink s).
Proof.
  unfold look. intros _. destruct (fs !! d) as [[| |]|]; try done; destruct (decide _); try done; [by intros [= <-]| |by intros [= <-]].
  by intros -> s ->.
Qed.
Lemma splits_hd_rel s : s ≠ [] → isabs s = false → ∃ c r, s = c ++ r ∧ slash ∉ c ∧ c ≠ [] ∧ hd [] (splits s) = c ∧
   (r = [] ∨ ∃ r', r = slash :: r').
Proof.
  intros Hs Ha. pose proof (indexSep_cut s 0) as Hc. rewrite drop_0 in Hc.
  destruct (indexSep slash s) as [k|].
  - destruct Hc as (c&r&->&Hc&_). exists c, (slash :: r). split_and!; [done|done| | |by right; exists r].
    + intros ->. by cbn in Ha.
    + rewrite splits_app, (splits_noslash c) by done. done.
  - exists s, []. rewrite app_nil_r. split_and!; [done..| |by left]. by rewrite (splits_noslash s).
Qed.

(** One iteration keeps what the path resolves to. *)
Lemma canon_step_inv fs p i dp n : fs_ok fs → root_links_ok fs → isabs p = true → cinv fs p i →
  match canon_step fs (CSt p i dp n) with
  | CNext (CSt p' i' _ _) => isabs p' = true ∧ cinv fs p' i' ∧ ∀ q, resolves fs [] (splits p) q ↔ resolves fs [] (splits p') q
  | COk r => ∃ q, resolves fs [] (splits p) q ∧ r = topath q ∧ real fs q
  | CFail EStat => ∀ q, ¬ resolves fs [] (splits p) q
  | CFail _ => 128 < dp
  end.
Proof.
  intros [Hroot Hne] Hlok Habs Hinv. unfold canon_step. destruct (negb (i <? length p)) eqn:Ei.
  { apply negb_true_iff, Nat.ltb_ge in Ei.
    assert (∃ d, kres fs 0 [] (splits p) = Some d) as [d Hd].
    { destruct Hinv as [a r d Hp Hk|d Hd|c r k Hp Hc Hcn Hr Hl Hnl]; [|by exists d|].
      - assert (r = []) as -> by (destruct r; [done|]; rewrite Hp, app_length in Ei; cbn in Ei; lia).
        rewrite Hp, splits_app. exists d. rewrite (kres_app _ _ _ _ _ _ Hk). by apply look_empty, (kres0_real fs _ [] _ (splits_pieces a) (real_root fs Hroot) Hk).
      - assert (r = []) as ->.
        { rewrite Hp in Ei. cbn in Ei. rewrite app_length in Ei. destruct c; [done|]. destruct r; [done|]. cbn in Ei. lia. }
        rewrite app_nil_r in Hp. rewrite Hp. change (slash :: c) with ([] ++ slash :: c). rewrite splits_app, (splits_noslash c) by done.
        exists (go [] c). cbn [splits app]. rewrite (kres_root fs 0 _ Hroot). cbn. rewrite Hl. destruct k; try done. by destruct (Hnl target). }
    destruct (clean_plain fs p d Hroot Habs Hd) as [Hcl Hre]. exists d. split_and!; [by exists 0|done|done]. }
  apply negb_false_iff, Nat.ltb_lt in Ei. destruct (128 <? dp) eqn:Ed; [by apply Nat.ltb_lt in Ed|].
  (* the piece looked at: p = a / c r, with everything in a resolved *)
  assert (∃ a c r d,
    p = a ++ slash :: c ++ r ∧ slash ∉ c ∧ (r = [] ∨ ∃ r', r = slash :: r') ∧ kres fs 0 [] (splits a) = Some d ∧
    (match indexSep slash (drop i p) with None => length p | Some k => i + k end) = length (a ++ slash :: c) ∧
    (take i p = a ++ [slash] ∨ ∃ k, look fs d c = Some k ∧ ∀ s, k ≠ KLink s)) as (a&c&r&d&Hp&Hc&Hr&Hk&Hi'&Hcase).
  { pose proof (indexSep_cut p i) as Hcut. destruct Hinv as [a r d Hp Hk|d Hd|c r k Hp Hc Hcn Hr Hl Hnl]; [|lia|].
    - assert (drop (S (length a)) p = r ∧ take (S (length a)) p = a ++ [slash]) as [Hdr Htk].
      { rewrite Hp, cons_middle, app_assoc.
        split; [apply drop_app_alt|apply take_app_alt]; rewrite app_length; cbn; lia. }
      rewrite Hdr in *. destruct (indexSep slash r) as [k|].
      + destruct Hcut as (c&r'&Hrr&Hc&Hlen). exists a, c, (slash :: r'), d. split_and!; [by rewrite Hp, Hrr|done|by right; exists r'|done| |by left].
        rewrite app_length. cbn. lia.
      + exists a, r, [], d. rewrite app_nil_r. split_and!; [done|done|by left|done|by rewrite Hp|by left].
    - exists [], c, r, []. split_and!; [done|done|done| | |right; by exists k].
      + cbn [splits app Ascii.eqb]; by rewrite !(kres_root fs 0 _ Hroot).
      + destruct c as [|x c]; [done|]. rewrite Hp in *. cbn [drop app length] in *. apply not_elem_of_cons in Hc as [Hx Hc].
        rewrite ?drop_0 in *. assert (∀ y, indexSep slash (c ++ slash :: y) = Some (length c)) as Hix.
        { intros y. clear -Hc. induction c as [|z c IH]; [done|]. apply not_elem_of_cons in Hc as [Hz Hc]. cbn.
          destruct (Ascii.eqb_spec z slash) as [->|]; [done|]. by rewrite IH. }
        destruct Hr as [->|[r' ->]].
        * rewrite app_nil_r in *. destruct (indexSep slash c) as [k'|]; [|done].
          destruct Hcut as (c'&r'&Heq&_). exfalso. apply Hc. rewrite Heq. set_solver.
        * rewrite Hix. done. }
  rewrite Hi'. assert (take (length (a ++ slash :: c)) p = a ++ slash :: c ∧ drop (length (a ++ slash :: c)) p = r) as [Htk Hdr].
  { rewrite Hp, app_comm_cons, app_assoc. by rewrite take_app, drop_app. }
  rewrite Htk, Hdr. rewrite (lstat_at fs a c d Hk Hc).
  pose proof (proj1 (kres0_real fs _ [] _ (splits_pieces a) (real_root fs Hroot) Hk)) as Hreal.
  assert (∀ k, look fs d c = Some k → (∀ s, k ≠ KLink s) →
    ∃ d', kres fs 0 [] (splits (a ++ slash :: c)) = Some d') as Hplain.
  { intros k Hl Hnl. exists (go d c). rewrite splits_app, (kres_app _ _ _ _ _ _ Hk), (splits_noslash c) by done. cbn. rewrite Hl.
    destruct k; try done. by destruct (Hnl target). }
  assert (∀ k, look fs d c = Some k → (∀ s, k ≠ KLink s) → cinv fs p (length (a ++ slash :: c) + 1)) as Hnext.
  { intros k Hl Hnl. destruct (Hplain k Hl Hnl) as [d' Hd']. rewrite Nat.add_1_r. destruct Hr as [->|[r' ->]].
    - rewrite app_nil_r in Hp. rewrite <-Hp in *. by eapply cinv_end.
    - eapply (cinv_good fs p (a ++ slash :: c) r' d'); [|done]. by rewrite Hp, <-app_assoc. }
  assert (splits p = splits a ++ c :: match r with [] => [] | _ :: r' => splits r' end) as Hsp.
  { rewrite Hp, splits_app. f_equal. destruct Hr as [->|[r' ->]]; [by rewrite app_nil_r, splits_noslash|].
    by rewrite splits_app, (splits_noslash c). }
  destruct (look fs d c) as [[| |s]|] eqn:El.
  - split_and!; [done|by eapply Hnext|done].
  - split_and!; [done|by eapply Hnext|done].
  - destruct Hcase as [Hti|(k&[= <-]&Hnl)]; [|by destruct (Hnl s)].
    unfold readlink. rewrite (lstat_at fs a c d Hk Hc), El.
    pose proof (look_slash fs d c _ Hreal El s eq_refl) as Hfs. pose proof (Hne _ _ Hfs) as Hs0.
    assert (∀ x, splits (x ++ s ++ r) = splits (x ++ s) ++ match r with [] => [] | _ :: r' => splits r' end) as Hsr.
    { intros x. rewrite app_assoc. destruct Hr as [->|[r' ->]]; [by rewrite !app_nil_r|]. apply splits_app. }
    destruct (isabs s) eqn:Hsa.
    + destruct s as [|x s]; [done|]. cbn in Hsa. apply Ascii.eqb_eq in Hsa as ->. split_and!; [done| |].
      * apply (cinv_good fs _ [slash] (s ++ r) []); [done|]. by apply kres_slash.
      * intros q. rewrite Hsp, (resolves_app _ _ _ _ _ _ Hk), (resolves_link _ _ _ _ _ _ El).
        change (slash :: (slash :: s) ++ r) with ([slash] ++ (slash :: s) ++ r). rewrite Hsr.
        change ([slash] ++ slash :: s) with ([] ++ slash :: slash :: s). rewrite (splits_app [] (slash :: s)). cbn [splits app isabs Ascii.eqb].
        rewrite !resolves_root by done. done.
    + assert (isabs (take i p) = true ∧ isabs (take i p ++ s ++ r) = true) as [_ Ha'].
      { rewrite Hti. rewrite Hp in Habs. destruct a as [|y a]; [done|]. cbn in *. done. }
      split_and!; [done| |].
      * rewrite Hti. destruct (decide (a = [])) as [->|Hane].
        { assert (d = []) as -> by (cbn [splits] in Hk; rewrite (kres_root fs 0 _ Hroot) in Hk; by injection Hk).
          destruct (splits_hd_rel s Hs0 Hsa) as (c1&r1&Hs1&Hc1&Hc1n&Hhd&Hr1).
          destruct (Hlok c s Hfs Hsa) as (k&Hlk&Hnl). rewrite Hhd in Hlk.
          apply (cinv_second fs _ c1 (r1 ++ r) k); [cbn; by rewrite Hs1, <-app_assoc|done|done| |done|done].
          destruct Hr1 as [->|[r1' ->]]; [done|]. right. by eexists. }
        (* the link is deeper: the first piece has been resolved without a link before *)
        destruct a as [|y a]; [done|]. assert (y = slash) as -> by (rewrite Hp in Habs; cbn in Habs; by apply Ascii.eqb_eq in Habs).
        destruct a as [|z a].
        { change ([slash] ++ [slash]) with ([slash] ++ [slash]). apply (cinv_good fs _ [slash] (s ++ r) []); [done|]. by apply kres_slash. }
        destruct (decide (z = slash)) as [->|Hz].
        { apply (cinv_good fs _ [slash] (a ++ [slash] ++ s ++ r) []); [cbn; by rewrite <-app_assoc|]. by apply kres_slash. }
        destruct (splits_hd_rel (z :: a)) as (c1&r1&Hs1&Hc1&Hc1n&Hhd&Hr1); [done|cbn [isabs]; destruct (Ascii.eqb_spec z slash); [by destruct Hz|done]|].
        assert (∃ k, look fs [] c1 = Some k ∧ ∀ s, k ≠ KLink s) as (k&Hlk&Hnl).
        { change (slash :: z :: a) with ([] ++ slash :: z :: a) in Hk. rewrite (splits_app [] (z :: a)) in Hk. change (splits []) with ([[]] : list str) in Hk; cbn [app] in Hk.
          destruct (splits (z :: a)) as [|x l] eqn:Esz; [by apply splits_nonempty in Esz|]. cbn in Hhd. subst x.
          rewrite (kres_root fs 0 _ Hroot) in Hk. cbn in Hk. destruct (look fs [] c1) as [[| |s1]|]; [exists KDir|exists KFile|done|done]; done. }
        apply (cinv_second fs _ c1 (r1 ++ [slash] ++ s ++ r) k); [|done|done| |done|done].
        { cbn. f_equal. rewrite (app_assoc c1 r1), <-Hs1. cbn. by rewrite <-app_assoc. }
        destruct Hr1 as [->|[r1' ->]]; right; by eexists.
      * intros q. rewrite Hsp, (resolves_app _ _ _ _ _ _ Hk), (resolves_link _ _ _ _ _ _ El), Hsa.
        rewrite Hti, Hsr, <-app_assoc. cbn [app]. rewrite splits_app, <-app_assoc. by rewrite (resolves_app _ _ _ _ _ _ Hk).
  - intros q Hq. rewrite Hsp, (resolves_app _ _ _ _ _ _ Hk) in Hq. destruct Hq as [n' Hn]. rewrite kres_eq in Hn. cbn in Hn. by rewrite El in Hn.
Qed.
Lemma cinv_start fs p : fs !! [] = Some KDir → isabs p = true → cinv fs p 1.
Proof.
  intros Hr Ha. destruct p as [|x p]; [done|]. cbn in Ha. apply Ascii.eqb_eq in Ha as ->.
  apply (cinv_good fs _ [] p []); [done|]. cbn [splits]. by rewrite kres_root.
Qed.
Lemma canon_loop_inv fs fuel : fs_ok fs → root_links_ok fs → ∀ p i dp n, isabs p = true → cinv fs p i →
  match canon_loop fs fuel (CSt p i dp n) with
  | Some (inl r) => ∃ q, resolves fs [] (splits p) q ∧ r = topath q ∧ real fs q
  | Some (inr EStat) => ∀ q, ¬ resolves fs [] (splits p) q
  | Some (inr EAbs) => False
  | _ => True
  end.
Proof.
  intros Hok Hlok. induction fuel as [|fuel IH]; intros p i dp n Ha Hi; [done|]. cbn [canon_loop].
  pose proof (canon_step_inv fs p i dp n Hok Hlok Ha Hi) as Hs.
  pose proof (canon_step_noabs fs (CSt p i dp n)) as Hna.
  destruct (canon_step fs (CSt p i dp n)) as [[p' i' dp' n']|r|[]]; try done.
  destruct Hs as (Ha'&Hi'&Heq). specialize (IH p' i' dp' n' Ha' Hi').
  destruct (canon_loop fs fuel (CSt p' i' dp' n')) as [[r|[]]|]; try done.
  - destruct IH as (q&Hq&?&?). exists q. split_and!; [by apply Heq|done..].
  - intros q Hq. by apply (IH q), Heq.
Qed.

(** ** Clean paths *)
Lemma isabs_cons p : isabs p = true → ∃ p', p = slash :: p'.
Proof. destruct p as [|x p]; [done|]. cbn. intros ->%Ascii.eqb_eq. by eexists. Qed.
Definition proper (c : str) : Prop := c ≠ [] ∧ c ≠ dot ∧ c ≠ dotdot ∧ slash ∉ c.
Lemma clean_fold_proper l : ∀ st, Forall (λ c, slash ∉ c) l → Forall proper st → Forall proper (foldl (clean_step true) st l).
Proof.
  induction l as [|c l IH]; intros st Hl Hst; [done|]. inversion_clear Hl. cbn [foldl]. apply IH; [done|].
  unfold clean_step. destruct (decide (c = [] ∨ c = dot)) as [|H1]; [done|]. destruct (decide (c = dotdot)) as [->|].
  - destruct st as [|x st]; [constructor|]. inversion_clear Hst as [|? ? (?&?&Hx&?)]. by rewrite decide_False.
  - constructor; [unfold proper; naive_solver|done].
Qed.
Lemma clean_abs p : isabs p = true → ∃ q, Forall proper q ∧ clean p = topath q.
Proof.
  intros Ha. exists (clean_comps true (splits p)). split.
  - unfold clean_comps. apply Forall_reverse, clean_fold_proper; [apply splits_pieces|constructor].
  - unfold clean. rewrite Ha. destruct (clean_comps true (splits p)) as [|x l]; [done|]. apply joins_render.
Qed.
Lemma splits_render q : Forall proper q → splits (render slash q) = [] :: q.
Proof.
  induction q as [|c q IH]; [done|]. intros Hq. inversion_clear Hq as [|? ? (_&_&_&Hc) Hq']. rewrite render_cons.
  change (slash :: c ++ render slash q) with ([] ++ slash :: c ++ render slash q). rewrite splits_app. cbn [splits app]. f_equal.
  destruct q as [|c' q]; [cbn; by rewrite app_nil_r, splits_noslash|]. rewrite render_cons in *. rewrite splits_app, (splits_noslash c) by done.
  cbn [app]. f_equal. specialize (IH Hq'). change (slash :: c' ++ render slash q) with ([] ++ slash :: c' ++ render slash q) in IH.
  rewrite splits_app in IH. change (splits []) with ([[]] : list str) in IH. cbn [app] in IH. injection IH as IH. exact IH.
Qed.
Lemma clean_step_proper st c : proper c → clean_step true st c = c :: st.
Proof.
  intros (H1&H2&H3&_). unfold clean_step. destruct (decide (c = [] ∨ c = dot)) as [[?|?]|]; [by destruct H1|by destruct H2|].
  destruct (decide (c = dotdot)); [by destruct H3|done].
Qed.
Lemma clean_fold_id q : ∀ st, Forall proper q → foldl (clean_step true) st q = reverse q ++ st.
Proof.
  induction q as [|c q IH]; intros st Hq; [done|]. apply Forall_cons in Hq as [Hc Hq]. cbn [foldl]. rewrite IH by done.
  rewrite clean_step_proper by done. rewrite reverse_cons, <-app_assoc. done.
Qed.
Lemma topath_abs q : isabs (topath q) = true.
Proof. by destruct q. Qed.
Lemma clean_topath q : Forall proper q → clean (topath q) = topath q.
Proof.
  intros Hq. unfold clean. rewrite topath_abs. destruct q as [|c q]; [done|]. unfold topath.
  assert (clean_comps true (splits (render slash (c :: q))) = c :: q) as ->.
  { unfold clean_comps. rewrite splits_render by done. 
    change (foldl (clean_step true) [] ([] :: c :: q)) with (foldl (clean_step true) [] (c :: q)).
    rewrite clean_fold_id by done. by rewrite app_nil_r, reverse_involutive. }
  apply joins_render.
Qed.
Lemma clean_idem p : isabs p = true → clean (clean p) = clean p.
Proof. intros Ha. destruct (clean_abs p Ha) as (q&Hq&->). by apply clean_topath. Qed.
Lemma abs_abs cwd p a : (∀ w, cwd = Some w → isabs w = true) → abs cwd p = Some a →
  isabs a = true ∧ clean a = a ∧ ∃ q, Forall proper q ∧ a = topath q.
Proof.
  intros Hw Habs. assert (∃ x, isabs x = true ∧ a = clean x) as (x&Hx&->).
  { unfold abs in Habs. destruct (isabs p) eqn:Hp; [injection Habs as <-; by exists p|]. destruct cwd as [w|]; [|done].
    injection Habs as <-. exists (w ++ slash :: p). split; [|done]. destruct (isabs_cons w (Hw w eq_refl)) as [w' ->]. done. }
  destruct (clean_abs x Hx) as (q&Hq&->). split_and!; [apply topath_abs|by apply clean_topath|by exists q].
Qed.

(** ** Paths without symlinks *)
Lemma real_take fs q1 q2 : fs !! [] = Some KDir → real fs (q1 ++ q2) → kres fs 0 [] q1 = Some q1.
Proof.
  intros Hr. revert q2. induction q1 as [|c q1 IH] using rev_ind; intros q2 Hq; [done|].
  rewrite <-app_assoc in Hq. rewrite (kres_app fs 0 [] q1 [c] q1) by (by eapply IH). cbn. destruct Hq as ((k&Hk&Hnl)&Hpre&Hc).
  unfold look. rewrite (Hpre q1); [|by eexists|intros Heq; apply (f_equal length) in Heq; rewrite !app_length in Heq; simpl in Heq; lia].
  apply Forall_app in Hc as [_ Hc]. inversion_clear Hc as [|? ? (H1&H2&H3&_) _].
  destruct (decide (c = [] ∨ c = dot ∨ c = dotdot)) as [[?|[?|?]]|]; [done..|]. unfold go.
  destruct (decide (c = [] ∨ c = dot)) as [[?|?]|]; [done..|]. destruct (decide (c = dotdot)); [done|].
  destruct q2 as [|c' q2].
  - cbn in *. rewrite Hk. destruct k as [| |s]; [done|done|by destruct (Hnl s)].
  - rewrite (Hpre (q1 ++ [c])); [done|exists (c' :: q2); by rewrite <-app_assoc|].
    intros Heq. apply (f_equal length) in Heq. rewrite !app_length in Heq. simpl in Heq. lia.
Qed.
Lemma canon_loop_real fs q2 : fs !! [] = Some KDir → ∀ q1 fuel n, q1 ++ q2 ≠ [] → real fs (q1 ++ q2) → length q2 < fuel → length q1 ≤ 128 →
  canon_loop fs fuel (CSt (render slash (q1 ++ q2)) (length (render slash q1) + 1) (1 + length q1) n) =
  Some (if length (q1 ++ q2) <=? 128 then inl (topath (q1 ++ q2)) else inr EDepth).
Proof.
  intros Hr. induction q2 as [|c q2 IH]; intros q1 fuel n Hne Hq Hf Hl; (destruct fuel as [|fuel]; [lia|]); cbn [canon_loop].
  - rewrite app_nil_r in *. unfold canon_step. rewrite (proj2 (Nat.ltb_ge _ _)) by lia. cbn [negb].
    rewrite (proj2 (Nat.leb_le _ _)) by done. f_equal. f_equal.
    assert (render slash q1 = topath q1) as -> by (by destruct q1). apply clean_topath. by destruct Hq as (_&_&?).
  - pose proof Hq as (_&_&Hpr). apply Forall_app in Hpr as [Hpr1 Hpr2]. inversion_clear Hpr2 as [|? ? Hc Hpr3].
    assert (0 < length c) by (destruct Hc; destruct c; [done|simpl; lia]).
    unfold canon_step. rewrite (proj2 (Nat.ltb_lt _ (length (render slash (q1 ++ c :: q2))))).
    2: { rewrite render_app, app_length, render_cons. cbn [length]. rewrite app_length. lia. }
    cbn [negb]. destruct (Nat.ltb_spec 128 (1 + length q1)) as [Hd|Hd].
    + rewrite app_length. cbn [length]. destruct (Nat.leb_spec (length q1 + S (length q2)) 128); [lia|done].
    + assert (drop (length (render slash q1) + 1) (render slash (q1 ++ c :: q2)) = c ++ render slash q2) as Hdrop.
      { rewrite render_app, render_cons, cons_middle, app_assoc. apply drop_app_alt. by rewrite app_length. }
      rewrite Hdrop. destruct Hc as (Hc1&Hc2&Hc3&Hc4).
      assert (match indexSep slash (c ++ render slash q2) with None => length (render slash (q1 ++ c :: q2))
              | Some k => length (render slash q1) + 1 + k end = length (render slash (q1 ++ [c]))) as ->.
      { rewrite render_snoc, app_length. cbn [length]. destruct q2 as [|c' q2].
        - cbn. rewrite app_nil_r. rewrite (proj2 (indexSep_None slash c)) by done. rewrite render_snoc, app_length. done.
        - rewrite render_cons. rewrite indexSep_app by done. lia. }
      assert (take (length (render slash (q1 ++ [c]))) (render slash (q1 ++ c :: q2)) = render slash (q1 ++ [c])) as ->.
      { rewrite (cons_middle c q1 q2), app_assoc, (render_app slash (q1 ++ [c])). apply take_app. }
      assert (kres fs 0 [] q1 = Some q1) as Hk1 by (by eapply real_take).
      assert (kres fs 0 [] (q1 ++ [c]) = Some (q1 ++ [c])) as Hk2 by (eapply (real_take fs _ q2); [done|by rewrite <-app_assoc]).
      rewrite (kres_app fs 0 [] q1 [c] q1 Hk1) in Hk2. cbn in Hk2.
      assert (lstat fs (render slash (q1 ++ [c])) = look fs q1 c) as ->.
      { rewrite render_snoc. apply lstat_at; [|done]. rewrite splits_render by done. by rewrite kres_root. }
      assert (canon_loop fs fuel (CSt (render slash ((q1 ++ [c]) ++ q2)) (length (render slash (q1 ++ [c])) + 1) (1 + length (q1 ++ [c])) (S n)) =
        Some (if length ((q1 ++ [c]) ++ q2) <=? 128 then inl (topath ((q1 ++ [c]) ++ q2)) else inr EDepth)) as Hgo.
      { apply IH; [by destruct q1|by rewrite <-app_assoc|simpl in Hf; lia|rewrite app_length; simpl; lia]. }
      rewrite <-app_assoc in Hgo. cbn [app] in Hgo. rewrite <-Hgo, app_length. cbn [length].
      destruct (look fs q1 c) as [[| |s]|]; try done; f_equal; f_equal; lia.
Qed.
