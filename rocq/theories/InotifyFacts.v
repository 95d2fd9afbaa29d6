(** * InotifyFacts *)
From Verif Require Import Base Event Paths PathsFacts Clean CleanFacts Inotify SpecInotify.
Local Open Scope N_scope.

(** ** Bits of constants *)
Lemma has_pow2 k i : has (2 ^ k) i ↔ i = k.
Proof.
  unfold has. destruct (decide (i = k)) as [->|Hne]; [by rewrite N.pow2_bits_true|].
  rewrite N.pow2_bits_false by done. done.
Qed.
Lemma land_pow2 e k : e .& 2 ^ k =? 0 = negb (N.testbit e k).
Proof.
  destruct (N.testbit e k) eqn:E; simpl; [apply N.eqb_neq|apply N.eqb_eq].
  - apply nonzero_bit. exists k. apply has_land. by rewrite has_pow2.
  - apply land_zero_disj. intros i Hi ->%has_pow2. unfold has in Hi. congruence.
Qed.
Lemma incl_pow2 k e : incl_ev (2 ^ k) e ↔ has e k.
Proof. split; [intros H; apply H; by apply has_pow2|]. by intros H i ->%has_pow2. Qed.

Lemma has_enc1 e k n i : has (enc1 e (2 ^ k) n) i ↔ (has e i ∧ i ≠ k) ∨ (has e k ∧ has n i).
Proof.
  unfold enc1. rewrite land_pow2, negb_involutive. destruct (N.testbit e k) eqn:E.
  - rewrite has_lor. assert (has (N.lxor e (2 ^ k)) i ↔ has e i ∧ i ≠ k) as ->; [|unfold has; tauto].
    unfold has. rewrite N.lxor_spec. destruct (decide (i = k)) as [->|Hne].
    + rewrite N.pow2_bits_true, E. simpl. naive_solver.
    + rewrite N.pow2_bits_false by done. rewrite xorb_false_r. naive_solver.
  - unfold has. rewrite E. destruct (decide (i = k)) as [->|Hne]; [rewrite E|]; naive_solver.
Qed.
Lemma has_All i : has (All linux) i ↔ i = 20 ∨ i = 21 ∨ i = 22 ∨ i = 23.
Proof.
  unfold All. change ICreate with (2 ^ 20). change IRemove with (2 ^ 21). change IWrite with (2 ^ 22). change IRename with (2 ^ 23).
  rewrite !has_lor, !has_pow2. tauto.
Qed.
Lemma asks_unfold e i :
  asks e i ↔ (has e i ∧ i ≠ 20 ∧ i ≠ 21 ∧ i ≠ 22 ∧ i ≠ 23) ∨ (has e 20 ∧ has (InCreate .| InMovedTo) i) ∨
    (has e 21 ∧ has (InDelete .| InDeleteSelf) i) ∨ (has e 22 ∧ has InModify i) ∨ (has e 23 ∧ has (InMovedFrom .| InMoveSelf) i).
Proof.
  unfold asks. rewrite has_All. split.
  - intros [[H1 H2]|(g&n&Hin&Hg&Hn)].
    + left. split; [done|]. repeat split; intros ->; apply H2; tauto.
    + right. unfold generics in Hin.
      repeat (apply elem_of_cons in Hin as [[= -> ->]|Hin]); [| | | |by apply elem_of_nil in Hin].
      * left. split; [exact (proj1 (incl_pow2 20 e) Hg)|done].
      * right. left. split; [exact (proj1 (incl_pow2 21 e) Hg)|done].
      * do 2 right. left. split; [exact (proj1 (incl_pow2 22 e) Hg)|done].
      * do 3 right. split; [exact (proj1 (incl_pow2 23 e) Hg)|done].
  - intros [(H1&H2)|[[Hg Hn]|[[Hg Hn]|[[Hg Hn]|[Hg Hn]]]]]; [left; split; [done|]; tauto|right..].
    + exists ICreate, (InCreate .| InMovedTo). split_and!; [left|exact (proj2 (incl_pow2 20 e) Hg)|done].
    + exists IRemove, (InDelete .| InDeleteSelf). split_and!; [right; left|exact (proj2 (incl_pow2 21 e) Hg)|done].
    + exists IWrite, InModify. split_and!; [do 2 right; left|exact (proj2 (incl_pow2 22 e) Hg)|done].
    + exists IRename, (InMovedFrom .| InMoveSelf). split_and!; [do 3 right; left|exact (proj2 (incl_pow2 23 e) Hg)|done].
Qed.
Lemma has_encode e i : has (encode e) i ↔ asks e i.
Proof.
  rewrite asks_unfold. unfold encode. change ICreate with (2 ^ 20). change IRemove with (2 ^ 21).
  change IWrite with (2 ^ 22). change IRename with (2 ^ 23). rewrite !has_enc1.
  assert (∀ n k, N.testbit n k = false → ¬ has n k) as F by (intros n k H1 H2; unfold has in H2; congruence).
  pose proof (F (InCreate .| InMovedTo) 21 eq_refl). pose proof (F (InCreate .| InMovedTo) 22 eq_refl).
  pose proof (F (InCreate .| InMovedTo) 23 eq_refl). pose proof (F (InDelete .| InDeleteSelf) 22 eq_refl).
  pose proof (F (InDelete .| InDeleteSelf) 23 eq_refl). pose proof (F InModify 23 eq_refl).
  pose proof (F (InCreate .| InMovedTo) 20 eq_refl). pose proof (F (InDelete .| InDeleteSelf) 20 eq_refl).
  pose proof (F InModify 20 eq_refl). pose proof (F (InMovedFrom .| InMoveSelf) 20 eq_refl).
  pose proof (F (InDelete .| InDeleteSelf) 21 eq_refl).
  pose proof (F InModify 21 eq_refl). pose proof (F InModify 22 eq_refl). pose proof (F (InMovedFrom .| InMoveSelf) 21 eq_refl).
  pose proof (F (InMovedFrom .| InMoveSelf) 22 eq_refl). pose proof (F (InMovedFrom .| InMoveSelf) 23 eq_refl).
  assert (21 ≠ 20) by done. assert (22 ≠ 20) by done. assert (23 ≠ 20) by done. assert (22 ≠ 21) by done.
  assert (23 ≠ 21) by done. assert (23 ≠ 22) by done.
  destruct (decide (i = 20)) as [->|]; [tauto|]. destruct (decide (i = 21)) as [->|]; [tauto|].
  destruct (decide (i = 22)) as [->|]; [tauto|]. destruct (decide (i = 23)) as [->|]; [tauto|]. tauto.
Qed.
Lemma known_bits e i : known e → has e i → i < 12 ∨ 20 ≤ i < 24.
Proof.
  intros Hk Hi. apply Hk in Hi. apply has_lor in Hi as [Hi|Hi]; [apply has_All in Hi; lia|].
  left. change 0xfff with (N.ones 12) in Hi. unfold has in Hi. by apply N.ones_spec_iff in Hi.
Qed.
Lemma encode_known e : known e → incl_ev (encode e) 0xfff.
Proof.
  intros Hk i. rewrite has_encode, asks_unfold. intros Hor. change 0xfff with (N.ones 12). apply N.ones_spec_iff. revert Hor.
  assert (∀ n, n <? 4096 = true → has n i → i < 12) as F.
  { intros n Hn Hi. apply N.ltb_lt in Hn. unfold has in Hi. destruct (N.lt_ge_cases i 12) as [|Hge]; [done|].
    destruct (N.eq_dec n 0) as [->|Hz]; [by rewrite N.bits_0 in Hi|].
    rewrite N.bits_above_log2 in Hi; [done|]. eapply N.lt_le_trans; [|exact Hge]. apply N.log2_lt_pow2; [lia|exact Hn]. }
  intros [(Hi&?&?&?&?)|[[_ Hi]|[[_ Hi]|[[_ Hi]|[_ Hi]]]]].
  2-5: eapply F; [|exact Hi]; done.
  apply (known_bits _ _ Hk) in Hi. lia.
Qed.

(** ** decode *)
Definition hits (n sys : N) : Prop := n .& sys ≠ 0.
Lemma hits_bit n sys : hits n sys ↔ ∃ i, has n i ∧ has sys i.
Proof. unfold hits. rewrite nonzero_bit. split; intros [i Hi]; exists i; [by apply has_land in Hi|by apply has_land]. Qed.
Lemma decode_hit mask sys k n :
  (∀ i, has mask k → has n i → has (encode mask) i) →
  negb (mask .& 2 ^ k =? 0) && negb (encode mask .& n .& sys =? 0) = true ↔ has mask k ∧ hits n sys.
Proof.
  intros Hn. rewrite land_pow2, negb_involutive, andb_true_iff, negb_true_iff, N.eqb_neq. unfold has at 1.
  split; intros [Hk Hi]; (split; [done|]).
  - apply hits_bit. apply nonzero_bit in Hi as [i Hi]. apply has_land in Hi as [[_ Hi]%has_land Hs]. eauto.
  - apply hits_bit in Hi as (i&H1&H2). apply nonzero_bit. exists i. rewrite !has_land. auto.
Qed.
Lemma decode_spec mask sys :
  (decode mask sys).2 = (if mask .& sys =? 0 then None else Some (mask .& sys)) ∧
  ((decode mask sys).1 = 0 ∧ (∀ g n, (g, n) ∈ generics → incl_ev g mask → ¬ hits n sys) ∨
   ∃ j g n, generics !! j = Some (g, n) ∧ (decode mask sys).1 = g ∧ incl_ev g mask ∧ hits n sys ∧
     ∀ j' g' n', (j' < j)%nat → generics !! j' = Some (g', n') → incl_ev g' mask → ¬ hits n' sys).
Proof.
  unfold decode. cbn [fst snd]. split; [by destruct (mask .& sys =? 0)|].
  change ICreate with (2 ^ 20). change IRemove with (2 ^ 21). change IWrite with (2 ^ 22). change IRename with (2 ^ 23).
  change generics with [(2^20, InCreate .| InMovedTo); (2^21, InDelete .| InDeleteSelf); (2^22, InModify); (2^23, InMovedFrom .| InMoveSelf)].
  assert (∀ k n g, (g, n) ∈ generics → g = 2 ^ k → ∀ i, has mask k → has n i → has (encode mask) i) as Hn.
  { intros k n g Hin -> i Hk Hi. apply has_encode. right. exists (2 ^ k), n. split_and!; [done|by apply incl_pow2|done]. }
  assert (∀ k n g, (g, n) ∈ generics → g = 2 ^ k →
    (if negb (mask .& 2 ^ k =? 0) && negb (encode mask .& n .& sys =? 0) then True else False) ↔ has mask k ∧ hits n sys) as Hd.
  { intros k n g Hin Hg. rewrite <-(decode_hit mask sys k n); [|by eapply Hn].
    by destruct (negb _ && negb _). }
  set (e20 := 2 ^ 20). set (e21 := 2 ^ 21). set (e22 := 2 ^ 22). set (e23 := 2 ^ 23).
  pose proof (Hd 20 (InCreate .| InMovedTo) (2^20) ltac:(by left) eq_refl) as H20.
  pose proof (Hd 21 (InDelete .| InDeleteSelf) (2^21) ltac:(right; by left) eq_refl) as H21.
  pose proof (Hd 22 InModify (2^22) ltac:(do 2 right; by left) eq_refl) as H22.
  pose proof (Hd 23 (InMovedFrom .| InMoveSelf) (2^23) ltac:(do 3 right; by left) eq_refl) as H23.
  fold e20 in H20. fold e21 in H21. fold e22 in H22. fold e23 in H23.
  assert (∀ k n, False ↔ has mask k ∧ hits n sys → incl_ev (2 ^ k) mask → ¬ hits n sys) as No.
  { intros k n [_ H] Hk%incl_pow2 Hn'. by apply H. }
  assert (∀ k n, True ↔ has mask k ∧ hits n sys → incl_ev (2 ^ k) mask ∧ hits n sys) as Yes.
  { intros k n [H _]. destruct (H I) as [? ?]. split; [by apply incl_pow2|done]. }
  destruct (negb (mask .& e20 =? 0) && _).
  { right. exists 0%nat, e20, (InCreate .| InMovedTo). destruct (Yes _ _ H20) as [Y1 Y2].
    refine (conj eq_refl (conj eq_refl (conj Y1 (conj Y2 _)))). intros; lia. }
  pose proof (No _ _ H20) as H20'. clear H20. rename H20' into H20.
  destruct (negb (mask .& e21 =? 0) && _).
  { right. exists 1%nat, e21, (InDelete .| InDeleteSelf). destruct (Yes _ _ H21) as [Y1 Y2].
    refine (conj eq_refl (conj eq_refl (conj Y1 (conj Y2 _)))).
    intros j' g' n' Hj Hl. destruct j' as [|]; [|lia]; injection Hl as <- <-; exact H20. }
  pose proof (No _ _ H21) as H21'. clear H21. rename H21' into H21.
  destruct (negb (mask .& e22 =? 0) && _).
  { right. exists 2%nat, e22, InModify. destruct (Yes _ _ H22) as [Y1 Y2].
    refine (conj eq_refl (conj eq_refl (conj Y1 (conj Y2 _)))).
    intros j' g' n' Hj Hl. destruct j' as [|[|]]; [| |lia]; injection Hl as <- <-; [exact H20|exact H21]. }
  pose proof (No _ _ H22) as H22'. clear H22. rename H22' into H22.
  destruct (negb (mask .& e23 =? 0) && _).
  { right. exists 3%nat, e23, (InMovedFrom .| InMoveSelf). destruct (Yes _ _ H23) as [Y1 Y2].
    refine (conj eq_refl (conj eq_refl (conj Y1 (conj Y2 _)))).
    intros j' g' n' Hj Hl. destruct j' as [|[|[|]]]; [| | |lia]; injection Hl as <- <-; [exact H20|exact H21|exact H22]. }
  pose proof (No _ _ H23) as H23'. clear H23. rename H23' into H23.
  left. split; [reflexivity|]. intros g n Hin.
  repeat (apply elem_of_cons in Hin as [[= -> ->]|Hin]); [exact H20|exact H21|exact H22|exact H23|by apply elem_of_nil in Hin].
Qed.

(** ** Parsing the buffer *)
Lemma u32_le4 n : u32 n → u32_of (le4 n) = n.
Proof.
  unfold u32, u32_of, le4. intros Hn. cbn [foldr].
  assert (∀ x, N_of_ascii (ascii_of_N (x mod 256)) = x mod 256) as F.
  { intros x. apply N_ascii_embedding. by apply N.mod_lt. }
  rewrite !F. replace 65536 with (256 * 256) by done. replace 16777216 with (256 * 256 * 256) by done.
  rewrite <-!N.div_div by done.
  set (a := n / 256). set (c := a / 256). set (d := c / 256).
  pose proof (N.div_mod' n 256) as H1. pose proof (N.div_mod' a 256) as H2. pose proof (N.div_mod' c 256) as H3.
  fold a in H1. fold c in H2. fold d in H3.
  assert (d < 256) as Hd.
  { unfold d, c, a. rewrite !N.div_div by done. apply N.div_lt_upper_bound; [done|]. exact Hn. }
  rewrite (N.mod_small d) by done. lia.
Qed.
Lemma two32_u32 z : u32 (two32 z).
Proof. unfold u32, two32. pose proof (Z.mod_pos_bound z (2 ^ 32) ltac:(done)). lia. Qed.
Lemma i32_le4 z : (- 2 ^ 31 ≤ z < 2 ^ 31)%Z → i32_of (le4 (two32 z)) = z.
Proof.
  intros Hz. unfold i32_of. rewrite u32_le4 by apply two32_u32. unfold two32.
  pose proof (Z.mod_pos_bound z (2 ^ 32) ltac:(done)) as Hb. rewrite Z2N.id by lia.
  destruct (Z_lt_le_dec z 0) as [Hneg|Hpos].
  - assert (z mod 2 ^ 32 = z + 2 ^ 32)%Z as ->.
    { rewrite <-(Z.mod_small (z + 2 ^ 32) (2 ^ 32)) by lia. rewrite <-(Z_mod_plus_full z 1 (2 ^ 32)). f_equal. }
    destruct (Z.ltb_spec (z + 2 ^ 32) (2 ^ 31)); lia.
  - rewrite Z.mod_small by lia. destruct (Z.ltb_spec z (2 ^ 31)); lia.
Qed.
Lemma le4_length n : length (le4 n) = 4%nat.
Proof. done. Qed.
Lemma trim0_repeat n : trim0 (repeat nul n) = [].
Proof. induction n as [|n IH]; [done|]. cbn [repeat trim0]. by rewrite IH. Qed.
Lemma trim0_name s n : nul ∉ s → trim0 (s ++ repeat nul n) = s.
Proof.
  induction s as [|c s IH]; intros H; cbn [app]; [apply trim0_repeat|].
  apply not_elem_of_cons in H as [Hc Hs]. cbn [trim0]. rewrite IH by done.
  destruct s as [|c' s]; [|done]. destruct (Ascii.eqb_spec c nul); congruence.
Qed.
Lemma parse_record r pad pre post n fuel :
  raw_ok (r, pad) → (length (pre ++ record_bytes r pad) ≤ n)%nat → (n ≤ length (pre ++ record_bytes r pad ++ post))%nat →
  parse (pre ++ record_bytes r pad ++ post) n (S fuel) (length pre) =
  cons r <$> parse (pre ++ record_bytes r pad ++ post) n fuel (length (pre ++ record_bytes r pad)).
Proof.
  intros (Hwd&Hm&Hc&Hnm&Hl) Hn1 Hn2.
  assert (length (record_bytes r pad) = 16 + (length (r_name r) + pad))%nat as Hlen.
  { unfold record_bytes. rewrite !app_length, !le4_length, repeat_length. lia. }
  rewrite app_length in Hn1.
  cbn [parse]. rewrite drop_app_alt by done.
  set (name := r_name r ++ repeat nul pad) in *.
  assert (take hdrsz (record_bytes r pad ++ post) = le4 (two32 (r_wd r)) ++ le4 (r_mask r) ++ le4 (r_cookie r) ++ le4 (N.of_nat (length (r_name r) + pad))) as ->.
  { unfold record_bytes, hdrsz. rewrite <-!(assoc_L (++)). rewrite !(assoc_L (++)). rewrite <-!(assoc_L (++)).
    rewrite take_app_ge by (rewrite le4_length; lia). do 3 (rewrite take_app_ge by (rewrite !le4_length; lia)).
    rewrite !le4_length. cbn [Nat.sub take]. by rewrite app_nil_r. }
  assert (length pre + hdrsz <=? n = true)%nat as -> by (apply Nat.leb_le; unfold hdrsz; lia).
  rewrite take_app_alt by done. rewrite i32_le4 by done.
  assert (∀ a c : str, length a = 4%nat → drop 4 (a ++ c) = c) as H4.
  { intros a c Ha. by apply drop_app_alt. }
  rewrite H4 by done. rewrite take_app_alt by done. rewrite u32_le4 by done.
  assert (∀ a b c d : str, length a = 4%nat → length b = 4%nat → drop 8 (a ++ b ++ c ++ d) = c ++ d) as H8.
  { intros a b c d Ha Hb. rewrite app_assoc. apply drop_app_alt. rewrite app_length. lia. }
  assert (∀ a b c d : str, length a = 4%nat → length b = 4%nat → length c = 4%nat → drop 12 (a ++ b ++ c ++ d) = d) as H12.
  { intros a b c d Ha Hb Hc'. rewrite !app_assoc. apply drop_app_alt. rewrite !app_length. lia. }
  rewrite H8 by done. rewrite take_app_alt by done. rewrite (u32_le4 (r_cookie r)) by done.
  rewrite H12 by done. rewrite take_ge by done. rewrite u32_le4 by done. rewrite Nat2N.id.
  assert (length (pre ++ record_bytes r pad ++ post) <? length pre + hdrsz + (length (r_name r) + pad) = false)%nat as ->.
  { apply Nat.ltb_ge. rewrite !app_length, Hlen. unfold hdrsz. lia. }
  assert (take (length (r_name r) + pad) (drop (length pre + hdrsz) (pre ++ record_bytes r pad ++ post)) = name) as ->.
  { rewrite drop_app_ge by lia. replace (length pre + hdrsz - length pre)%nat with hdrsz by lia.
    set (h := le4 (two32 (r_wd r)) ++ le4 (r_mask r) ++ le4 (r_cookie r) ++ le4 (N.of_nat (length (r_name r) + pad))).
    assert (record_bytes r pad = h ++ name) as -> by (unfold record_bytes, h, name; by rewrite <-!(assoc_L (++))).
    rewrite <-(assoc_L (++)). rewrite drop_app_alt by done.
    apply take_app_alt. unfold name. rewrite app_length, repeat_length. done. }
  unfold name. rewrite trim0_name by done.
  replace (length (pre ++ record_bytes r pad)) with (length pre + hdrsz + (length (r_name r) + pad))%nat
    by (rewrite app_length, Hlen; unfold hdrsz; lia).
  destruct (parse _ n fuel _); [|done]. cbn. by destruct r.
Qed.
Lemma parse_records rs pre post fuel :
  Forall raw_ok rs →
  let buf := pre ++ flat_map (λ x, record_bytes x.1 x.2) rs ++ post in
  let n := length (pre ++ flat_map (λ x, record_bytes x.1 x.2) rs) in
  (length rs ≤ fuel)%nat → parse buf n fuel (length pre) = Some (rs.*1).
Proof.
  intros Hok. revert pre fuel. induction Hok as [|[r pad] rs Hr Hok IH]; intros pre fuel; cbn zeta; cbn [flat_map].
  - intros _. rewrite app_nil_r. destruct fuel; cbn [parse];
      by (assert (length pre + hdrsz <=? length pre = false)%nat as -> by (apply Nat.leb_gt; unfold hdrsz; lia)).
  - intros Hf. destruct fuel as [|fuel]; [cbn in Hf; lia|]. cbn [length] in Hf.
    set (rest := flat_map _ rs) in *. cbn [fst snd].
    rewrite <-!(assoc_L (++)). rewrite parse_record; [|done|rewrite !app_length; lia|rewrite !app_length; lia].
    specialize (IH (pre ++ record_bytes r pad) fuel). cbn zeta in IH.
    rewrite <-!(assoc_L (++)) in IH. rewrite IH by lia. done.
Qed.
(** Every record is at least [hdrsz] bytes long. *)
Lemma records_length rs : (16 * length rs ≤ length (flat_map (λ x : raw * nat, record_bytes x.1 x.2) rs))%nat.
Proof.
  induction rs as [|[r pad] rs IH]; [done|]. cbn [flat_map length fst snd]. rewrite app_length.
  assert (16 ≤ length (record_bytes r pad))%nat; [|lia]. unfold record_bytes. rewrite !app_length, !le4_length. lia.
Qed.
Lemma read_records rs post :
  Forall raw_ok rs →
  i_read (flat_map (λ x, record_bytes x.1 x.2) rs ++ post) (Some (length (flat_map (λ x, record_bytes x.1 x.2) rs))) = Some (rs.*1).
Proof.
  intros Hok. unfold i_read. pose proof (records_length rs) as Hl. set (l := flat_map _ rs) in *.
  destruct (Nat.ltb_spec (length l) hdrsz) as [Hs|Hs]; unfold hdrsz in Hs.
  - destruct rs as [|]; [done|]. cbn [length] in Hl. lia.
  - pose proof (parse_records rs [] post (S (length l)) Hok) as Hp. cbn zeta in Hp. fold l in Hp. cbn [app length] in Hp.
    apply Hp. lia.
Qed.
(** The loop ends on arbitrary bytes too (or panics): fuel [n+1] is never exhausted. *)
Lemma parse_fuel buf n fuel fuel' pos :
  (n < pos + fuel)%nat → (n < pos + fuel')%nat → parse buf n fuel pos = parse buf n fuel' pos.
Proof.
  revert fuel' pos. induction fuel as [|fuel IH]; intros fuel' pos H1 H2.
  - cbn [parse]. destruct (Nat.leb_spec (pos + hdrsz) n) as [Hx|Hx]; [unfold hdrsz in Hx; lia|].
    destruct fuel'; cbn [parse]; [|destruct (Nat.leb_spec (pos + hdrsz) n) as [Hy|Hy]; [lia|done]].
    by destruct (Nat.leb_spec (pos + hdrsz) n) as [Hy|Hy]; [lia|].
  - destruct fuel' as [|fuel'].
    + cbn [parse]. destruct (Nat.leb_spec (pos + hdrsz) n) as [Hx|Hx]; [unfold hdrsz in Hx; lia|done].
    + cbn [parse]. destruct (pos + hdrsz <=? n)%nat; [|done].
      destruct (length buf <? _)%nat; [done|]. rewrite (IH fuel'); [done| |]; unfold hdrsz; lia.
Qed.
