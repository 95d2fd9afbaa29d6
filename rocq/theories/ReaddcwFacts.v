(** * ReaddcwFacts: the translation of events on Windows *)
From Verif Require Import Base Event Watchpoint WatchpointFacts Readdcw SpecReaddcw.
Local Open Scope N_scope.

Lemma tb_pow e k : nonzero (e .& 2 ^ k) = N.testbit e k.
Proof.
  destruct (N.testbit e k) eqn:Hb.
  - apply negb_true_iff, N.eqb_neq, nonzero_bit. exists k. apply has_land. split; [done|]. unfold has. by rewrite N.pow2_bits_true.
  - apply negb_false_iff, N.eqb_eq, land_zero_disj. intros i Hi Hk. unfold has in *. rewrite N.pow2_bits_eqb in Hk.
    apply N.eqb_eq in Hk as <-. congruence.
Qed.
Definition stage (k add e : N) : N := if N.testbit e k then N.lxor e (2 ^ k) .| add else e.
Lemma stage_bit k add e i : N.testbit (stage k add e) i =
  (N.testbit e i && negb (k =? i)) || (N.testbit e k && N.testbit add i).
Proof.
  unfold stage. destruct (N.testbit e k) eqn:Hk.
  - rewrite N.lor_spec, N.lxor_spec, N.pow2_bits_eqb. destruct (N.eqb_spec k i) as [->|]; [by rewrite Hk|]. by rewrite xorb_false_r, andb_true_r.
  - rewrite orb_false_r. destruct (N.eqb_spec k i) as [<-|]; [by rewrite Hk|by rewrite andb_true_r].
Qed.
(** The bits of a filter that pass through. *)
Definition passed : N := 0x0F000FFF.
Definition wbits : N := FileNotifyChangeAttributes .| FileNotifyChangeSize .| FileNotifyChangeCreation .| FileNotifyChangeSecurity.
Lemma small_bits (Q : N → Prop) : (∀ n, (n < 32)%nat → Q (N.of_nat n)) → (∀ i, 32 <= i → Q i) → ∀ i, Q i.
Proof. intros H1 H2 i. destruct (N.lt_ge_cases i 32) as [K|K]; [|by apply H2]. rewrite <-(N2Nat.id i). apply H1. lia. Qed.
Lemma big_bit c i : c < 2 ^ 32 → 32 <= i → N.testbit c i = false.
Proof.
  intros Hc Hi. destruct (N.eq_dec c 0) as [->|Hz]; [apply N.bits_0|]. apply N.bits_above_log2.
  apply N.log2_lt_pow2 in Hc; lia.
Qed.
Lemma encode_stages f : rd_encode f =
  let e := f .& (onlyNGlobalEvents .| onlyNotifyChanges) in
  if N.testbit e 26 then FileNotifyChangeDirName
  else stage 23 FileNotifyChangeFileName (stage 22 wbits (stage 21 FileNotifyChangeFileName (stage 20 FileNotifyChangeFileName e))).
Proof.
  unfold rd_encode, stage. cbv zeta. rewrite <-!tb_pow. unfold wbits. rewrite !N.lor_assoc. done.
Qed.
Lemma encode_bit f i : N.testbit (rd_encode f) i =
  if N.testbit f 26 then (i =? 1)
  else (N.testbit f i && N.testbit passed i) || ((N.testbit f 20 || N.testbit f 21 || N.testbit f 23) && (i =? 0)) || (N.testbit f 22 && N.testbit wbits i).
Proof.
  rewrite encode_stages. cbv zeta. rewrite N.land_spec, andb_true_r.
  destruct (N.testbit f 26) eqn:H26.
  { unfold FileNotifyChangeDirName. change 0x2 with (2 ^ 1). rewrite N.pow2_bits_eqb. apply N.eqb_sym. }
  rewrite !stage_bit, !N.land_spec. revert i. apply small_bits.
  - intros n Hn. do 32 (destruct n as [|n]; [cbn [N.of_nat Pos.of_succ_nat Pos.succ];
      repeat match goal with |- context [N.testbit f ?k] => destruct (N.testbit f k) eqn:? end; done|]). lia.
  - intros i Hi. assert (∀ c, c < 2 ^ 32 → N.testbit c i = false) as K by (intros; by apply big_bit).
    rewrite (K passed), (K wbits), (K FileNotifyChangeFileName), (K (onlyNGlobalEvents .| onlyNotifyChanges)) by done.
    rewrite !andb_false_r, !andb_false_l. destruct (N.eqb_spec i 0); [lia|]. by rewrite !andb_false_r.
Qed.

(** ** C46 *)
Definition natives : N := FileNotifyChangeFileName .| FileNotifyChangeDirName .| FileNotifyChangeAttributes .| FileNotifyChangeSize .|
       FileNotifyChangeLastWrite .| FileNotifyChangeLastAccess .| FileNotifyChangeCreation .| FileNotifyChangeSecurity.
Lemma native_bit_bool e i : native_bit e i ↔
  (N.testbit e i && N.testbit natives i) || ((N.testbit e 20 || N.testbit e 21 || N.testbit e 23) && (i =? 0)) || (N.testbit e 22 && N.testbit wbits i) = true.
Proof.
  unfold native_bit.
  assert (∀ r f, e .& r ≠ 0 ∧ has f i ↔ nonzero (e .& r) && N.testbit f i = true) as K.
  { intros r f. by rewrite andb_true_iff, negb_true_iff, N.eqb_neq. }
  assert ((∃ r f, (r, f) ∈ implied ∧ e .& r ≠ 0 ∧ has f i) ↔ existsb (λ x, nonzero (e .& x.1) && N.testbit x.2 i) implied = true) as ->.
  { rewrite existsb_exists. split.
    - intros (r&f&H1&H2). exists (r, f). rewrite <-elem_of_list_In. split; [done|]. by apply K.
    - intros ([r f]&H1&H2). exists r, f. rewrite elem_of_list_In. split; [done|]. by apply K. }
  unfold implied. cbn [existsb fst snd].
  change (Create readdcw) with (2 ^ 20). change (Remove readdcw) with (2 ^ 21).
  change (Write readdcw) with (2 ^ 22). change (Rename readdcw) with (2 ^ 23).
  unfold natives, wbits, FileNotifyChangeFileName, FileNotifyChangeDirName, FileNotifyChangeAttributes, FileNotifyChangeSize,
    FileNotifyChangeLastWrite, FileNotifyChangeLastAccess, FileNotifyChangeCreation, FileNotifyChangeSecurity.
  change 0x1 with (2 ^ 0). change 0x2 with (2 ^ 1). change 0x4 with (2 ^ 2). change 0x8 with (2 ^ 3). change 0x10 with (2 ^ 4).
  change 0x20 with (2 ^ 5). change 0x40 with (2 ^ 6). change 0x100 with (2 ^ 8).
  rewrite !tb_pow, !N.lor_spec, !N.pow2_bits_eqb.
  clear K. revert i. apply small_bits.
  - intros n Hn. do 32 (destruct n as [|n]; [cbn [N.of_nat Pos.of_succ_nat Pos.succ N.eqb Pos.eqb];
      rewrite ?andb_false_r, ?andb_true_r, ?orb_false_l, ?orb_false_r;
      repeat match goal with |- context [N.testbit e ?k] => destruct (N.testbit e k) eqn:? end; done|]). lia.
  - intros i Hi. assert (∀ k, k < 32 → (k =? i) = false) as K by (intros; apply N.eqb_neq; lia).
    rewrite !K by lia. rewrite (N.eqb_sym i 0), K by lia. by rewrite !andb_false_r.
Qed.
(** The bits that are neither generic events, nor native filters, nor masked out. *)
Definition others : N := 0x0B000E80.
Lemma encode_full f i : N.testbit f 26 = false → has (rd_encode f) i ↔ native_bit f i ∨ has f i ∧ has others i.
Proof.
  intros H. unfold has. rewrite native_bit_bool, encode_bit, H, <-andb_true_iff, <-orb_true_iff.
  apply eq_iff_eq_true. revert i. apply small_bits.
  - intros n Hn. do 32 (destruct n as [|n]; [cbn [N.of_nat Pos.of_succ_nat Pos.succ];
      repeat match goal with |- context [N.testbit f ?k] => destruct (N.testbit f k) eqn:? end; done|]). lia.
  - intros i Hi. assert (∀ c, c < 2 ^ 32 → N.testbit c i = false) as K by (intros; by apply big_bit).
    rewrite (K passed), (K wbits), (K natives), (K others) by done. by rewrite !andb_false_r, !orb_false_r.
Qed.
Lemma known_requestable e : e .&^ known_events = 0 ↔ requestable e.
Proof.
  unfold requestable. split.
  - intros H i Hi. assert (has known_events i) as K.
    { destruct (has_dec known_events i) as [|Hn]; [done|]. exfalso. apply (has_0 i). rewrite <-H. by apply has_ldiff. }
    exact K.
  - intros H. apply has_ext. intros i. rewrite has_ldiff. split; [|by intros ?%has_0]. intros [H1 H2]. exfalso. apply H2. exact (H i H1).
Qed.
Lemma requestable_26 e : requestable e → N.testbit e 26 = false.
Proof. intros H. destruct (N.testbit e 26) eqn:K; [|done]. by apply H in K. Qed.
Lemma requestable_others e i : requestable e → has e i → has others i → False.
Proof.
  intros H H1%H H2. revert H1 H2. match goal with |- has ?a i → _ => assert (disj_ev a others) as K; [|apply K] end.
  apply land_zero_disj. by vm_compute.
Qed.

(** ** C47 *)
Lemma matches_pow g k : disj_ev g (omit readdcw) → (k =? 25) = false → N.testbit fileNotifyChangeModified k = false →
  matches readdcw g (2 ^ k) = N.testbit g k.
Proof.
  intros Hg Hk Hm. unfold matches. cbn [windows readdcw].
  assert (g .& omit readdcw = 0) as -> by (by apply land_zero_disj).
  assert (2 ^ k .& omit readdcw = 0) as ->.
  { apply land_zero_disj. intros i Hi Ho. unfold has in *. change (omit readdcw) with (2 ^ 25) in Ho. rewrite N.pow2_bits_eqb in Hi, Ho.
    apply N.eqb_eq in Hi as ->. rewrite N.eqb_sym in Ho. congruence. }
  rewrite N.lxor_0_r, N.eqb_refl. cbn [andb].
  assert (g .& fileNotifyChangeModified .& 2 ^ k = 0) as ->.
  { apply land_zero_disj. intros i [_ Hi]%has_land Hk'. unfold has in *. rewrite N.pow2_bits_eqb in Hk'. apply N.eqb_eq in Hk' as ->. congruence. }
  cbn [N.eqb negb]. rewrite orb_false_r. destruct (N.testbit g k) eqn:Hb.
  - apply N.eqb_eq, land_eq_incl. intros i Hi. unfold has in *. rewrite N.pow2_bits_eqb in Hi. by apply N.eqb_eq in Hi as <-.
  - apply N.eqb_neq. intros H%land_eq_incl. assert (has g k) as K; [|unfold has in K; congruence]. apply H. unfold has. by rewrite N.pow2_bits_true.
Qed.
Lemma matches_mod g : disj_ev g (omit readdcw) → matches readdcw g fileNotifyChangeModified = nonzero (g .& fileNotifyChangeModified).
Proof.
  intros Hg. unfold matches. cbn [windows readdcw].
  assert (g .& omit readdcw = 0) as -> by (by apply land_zero_disj).
  change (fileNotifyChangeModified .& omit readdcw) with 0. rewrite N.lxor_0_r, N.eqb_refl. cbn [andb].
  rewrite <-N.land_assoc, N.land_diag. destruct (N.eqb_spec (g .& fileNotifyChangeModified) fileNotifyChangeModified) as [->|]; done.
Qed.
Lemma mask_info join stat d n t v : eventmask readdcw (rd_info join stat (RdEvent d n t v)) 0 =
  if nonzero (v .& fileActionAll) then
    (v .| match t with fTypeFile => FileNotifyChangeFileName | fTypeDirectory => FileNotifyChangeDirName | fTypeUnknown => fileNotifyChangeModified end) .&^ fileActionAll
  else v.
Proof. unfold eventmask, rd_info. cbn [windows readdcw ei_event ei_ftype re_e re_ftype]. rewrite N.lor_0_r. by destruct t. Qed.
Definition b2n (x : bool) : nat := if x then 1 else 0.
Definition coversb (g action : N) (isdir : bool) : bool :=
  if action =? FILE_ACTION_MODIFIED then nonzero (g .& fileNotifyChangeModified)
  else nonzero (g .& (if isdir then FileNotifyChangeDirName else FileNotifyChangeFileName)).
Lemma coversb_ok g a isdir : coversb g a isdir = true ↔ covers g a isdir.
Proof.
  unfold coversb, covers. destruct (N.eqb_spec a FILE_ACTION_MODIFIED) as [->|Hne]; [rewrite decide_True by done|rewrite decide_False by done];
    rewrite negb_true_iff, N.eqb_neq; done.
Qed.
Lemma offers_list join stat g d n t e syse :
  let mk v := RdEvent d n t v in
  let M v := matches readdcw g (eventmask readdcw (rd_info join stat (mk v)) 0) in
  offers join stat g (if (e =? 0) && (syse =? 0) then [] else if e =? 0 then [mk syse] else if nonzero syse then [mk syse; mk e] else [mk e]) =
  (b2n (nonzero e && M e) + b2n (nonzero syse && M syse))%nat.
Proof.
  intros mk M. unfold offers.
  assert (∀ v l, filter (λ ev, matches readdcw g (eventmask readdcw (rd_info join stat ev) 0) = true) (mk v :: l) =
    if M v then mk v :: filter (λ ev, matches readdcw g (eventmask readdcw (rd_info join stat ev) 0) = true) l
    else filter (λ ev, matches readdcw g (eventmask readdcw (rd_info join stat ev) 0) = true) l) as K.
  { intros v l. rewrite filter_cons. fold (M v). destruct (M v); [by rewrite decide_True|by rewrite decide_False]. }
  destruct (e =? 0), (syse =? 0); cbn [andb negb]; rewrite ?K, ?filter_nil; try done;
    destruct (M e) eqn:?, (M syse) eqn:?; try done.
Qed.
Lemma send1_gensys f x ge se : (fn_action x, (ge, se)) ∈ actions → rd_decode f (fn_action x) = gensys f ge se.
Proof.
  destruct x as [a n]. cbn [fn_action]. unfold actions. rewrite !elem_of_cons.
  intros [[= -> -> ->]|[[= -> -> ->]|[[= -> -> ->]|[[= -> -> ->]|[[= -> -> ->]|H]]]]]; try done. by apply elem_of_nil in H.
Qed.
Lemma offers_send1 join stat d f x g ge se :
  disj_ev g (omit readdcw) → (fn_action x, (ge, se)) ∈ actions →
  let isdir := nonzero (f .& dirmarker) in
  incl_ev (g .& known_events .&^ (if isdir then 0 else FileNotifyChangeDirName)) f →
  offers join stat g (send1 d f x) = (b2n (nonzero (g .& ge)) + b2n (coversb g (fn_action x) isdir))%nat.
Proof.
  intros Hg Ha isdir Hi. unfold send1. rewrite (send1_gensys f x ge se Ha). unfold gensys. fold isdir. cbv zeta.
  rewrite offers_list. destruct x as [a n]. cbn [fn_action fn_name] in *.
  assert (∀ k, has known_events k → (isdir = true ∨ k ≠ 1) → has g k → has f k) as Hk.
  { intros k K1 K2 K3. apply Hi. apply has_ldiff. split; [by apply has_land|]. destruct isdir; [apply has_0|].
    destruct K2 as [|K2]; [done|]. unfold has, FileNotifyChangeDirName. change 2 with (2 ^ 1). rewrite N.pow2_bits_eqb. intros K%N.eqb_eq. done. }
  assert (∀ m, incl_ev m known_events → (isdir = true ∨ ¬ has m 1) → nonzero (g .& m) = true → nonzero (f .& m) = true) as Hm.
  { intros m Hm Hd. rewrite !negb_true_iff, !N.eqb_neq. intros [i [I1 I2]%has_land]%nonzero_bit. apply nonzero_bit. exists i. apply has_land. split; [|done].
    apply (Hk i); [by apply Hm| |done]. destruct Hd as [|Hd]; [by left|right]. intros ->. done. }
  f_equal.
  - assert (∃ k, ge = 2 ^ k ∧ 20 <= k ∧ k < 24) as (k&->&K1&K2).
    { unfold actions in Ha. rewrite !elem_of_cons in Ha.
      destruct Ha as [[= _ -> _]|[[= _ -> _]|[[= _ -> _]|[[= _ -> _]|[[= _ -> _]|H]]]]]; [exists 20|exists 21|exists 22|exists 23|exists 23|by apply elem_of_nil in H]; done. }
    assert (k = 20 ∨ k = 21 ∨ k = 22 ∨ k = 23) as Hkk by lia.
    assert (nonzero (g .& 2 ^ k) = true → nonzero (f .& 2 ^ k) = true) as Hgf.
    { apply Hm; [|right]; destruct Hkk as [->|[->|[->| ->]]]; try (by vm_compute); apply land_eq_incl; by vm_compute. }
    assert (2 ^ k ≠ 0) as Hz by (apply N.pow_nonzero; lia).
    destruct (nonzero (f .& 2 ^ k)) eqn:Hf.
    + apply N.eqb_neq in Hz as ->. cbn [negb andb]. rewrite mask_info.
      assert (nonzero (2 ^ k .& fileActionAll) = false) as -> by (destruct Hkk as [->|[->|[->| ->]]]; by vm_compute).
      rewrite matches_pow, tb_pow; [done|done|..]; destruct Hkk as [->|[->|[->| ->]]]; by vm_compute.
    + cbn [N.eqb negb andb]. destruct (nonzero (g .& 2 ^ k)) eqn:Hgk; [|done]. by specialize (Hgf eq_refl).
  - set (c := isdir && _ || _ || _).
    assert (incl_ev fileNotifyChangeModified known_events) as I1 by (apply land_eq_incl; by vm_compute).
    assert (incl_ev FileNotifyChangeDirName known_events) as I2 by (apply land_eq_incl; by vm_compute).
    assert (incl_ev FileNotifyChangeFileName known_events) as I3 by (apply land_eq_incl; by vm_compute).
    assert (coversb g a isdir = true → c = true) as Hc.
    { unfold coversb, c. destruct (a =? FILE_ACTION_MODIFIED).
      - intros K. rewrite (Hm _ I1) by (try done; right; by vm_compute). by rewrite orb_true_r.
      - destruct isdir; intros K.
        + by rewrite (Hm _ I2) by (try done; by left).
        + rewrite (Hm _ I3) by (try done; right; by vm_compute). done. }
    assert (nonzero se && matches readdcw g (eventmask readdcw (rd_info join stat (RdEvent d n (rd_ftype f a) se)) 0) = coversb g a isdir) as Hs.
    { rewrite mask_info. unfold rd_ftype, coversb. fold isdir. unfold actions in Ha. rewrite !elem_of_cons in Ha.
      assert (FileNotifyChangeFileName = 2 ^ 0 ∧ FileNotifyChangeDirName = 2 ^ 1) as [E0 E1] by done.
      destruct Ha as [[= -> _ ->]|[[= -> _ ->]|[[= -> _ ->]|[[= -> _ ->]|[[= -> _ ->]|H]]]]]; [..|by apply elem_of_nil in H].
      3: { transitivity (matches readdcw g fileNotifyChangeModified); [done|]. by rewrite matches_mod. }
      all: destruct isdir; [transitivity (matches readdcw g (2 ^ 1)); [done|]; rewrite matches_pow by done; by rewrite E1, tb_pow
                           |transitivity (matches readdcw g (2 ^ 0)); [done|]; rewrite matches_pow by done; by rewrite E0, tb_pow]. }
    destruct c; [by rewrite Hs|]. cbn [N.eqb negb andb]. destruct (coversb g a isdir); [|done]. by specialize (Hc eq_refl).
Qed.
Lemma send1_unknown d f x : fn_action x ∉ (fst <$> actions) → send1 d f x = [].
Proof.
  intros H. unfold send1, rd_decode.
  assert (∀ c, c ∈ (fst <$> actions) → (fn_action x =? c) = false) as K by (intros c Hc; apply N.eqb_neq; congruence).
  rewrite !K; [done|..]; apply elem_of_list_In; vm_compute; tauto.
Qed.
