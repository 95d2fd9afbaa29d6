(** * Property theorems C67: from the buffer to the channel on Windows *)
From Verif Require Import Base Event Paths Node Inotify SpecInotify InotifyFacts Readdcw ReaddcwBuf SpecReaddcwBuf.
Local Open Scope N_scope.

(** ** Names *)
Lemma units_le2 l r : Forall unit_ok l → units ((l ≫= le2) ++ r) = l ++ units r.
Proof.
  induction 1 as [|u l Hu _ IH]; [done|]. cbn [mbind list_bind le2 app units]. cbn [mbind] in IH. rewrite IH. f_equal.
  unfold unit_ok in Hu. change (2 ^ 16) with 65536 in Hu. rewrite !N_ascii_embedding; [|apply N.div_lt_upper_bound; lia|by apply N.mod_lt].
  pose proof (N.div_mod' u 256). lia.
Qed.
Lemma units_all l : Forall unit_ok l → units (l ≫= le2) = l.
Proof. intros H. pose proof (units_le2 l [] H) as E. by rewrite !app_nil_r in E. Qed.
Lemma le2_length l : length (l ≫= le2) = (2 * length l)%nat.
Proof. induction l as [|u l IH]; [done|]. cbn [mbind list_bind]. rewrite app_length. cbn [length le2]. cbn in IH. lia. Qed.
Lemma utf16_ok c : char_ok c → Forall (λ u, unit_ok u ∧ u ≠ 0) (utf16 c).
Proof.
  intros (H0&Hs&Hm). unfold utf16, unit_ok. change (2 ^ 16) with 65536.
  destruct (N.ltb_spec c 0x10000); [repeat apply Forall_cons_2; [split; lia|by constructor]|].
  assert ((c - 0x10000) / 1024 < 1024) as H1 by (apply N.div_lt_upper_bound; lia).
  assert ((c - 0x10000) mod 1024 < 1024) as H2 by (by apply N.mod_lt).
  set (x := (c - 0x10000) / 1024) in *. set (y := (c - 0x10000) mod 1024) in *. clearbody x y.
  repeat apply Forall_cons_2; [split; lia|split; lia|by constructor].
Qed.
Lemma cut0_all l : Forall (λ u, unit_ok u ∧ u ≠ 0) l → cut0 l = l.
Proof. induction 1 as [|u l [_ Hu] _ IH]; [done|]. cbn. destruct (N.eqb_spec u 0); [done|]. by rewrite IH. Qed.
Lemma utf16_dec_char c l : char_ok c → utf16_dec (utf16 c ++ l) = c :: utf16_dec l.
Proof.
  intros (H0&Hs&Hm). unfold utf16. destruct (N.ltb_spec c 0x10000).
  - cbn [app utf16_dec]. unfold hi_surr, lo_surr.
    destruct (N.leb_spec 0xD800 c), (N.ltb_spec c 0xDC00), (N.leb_spec 0xDC00 c), (N.ltb_spec c 0xE000); cbn; try done; lia.
  - set (d := c - 0x10000). assert (d / 1024 < 1024) as H1 by (apply N.div_lt_upper_bound; lia).
    pose proof (N.mod_lt d 1024 ltac:(done)) as H2. pose proof (N.div_mod' d 1024) as H3.
    assert (d = c - 0x10000) as Hd by done. clearbody d. set (x := d / 1024) in *. set (y := d mod 1024) in *. clearbody x y.
    cbn [app utf16_dec]. unfold hi_surr, lo_surr.
    assert (0xD800 <=? 0xD800 + x = true) as -> by (apply N.leb_le; lia).
    assert (0xD800 + x <? 0xDC00 = true) as -> by (apply N.ltb_lt; lia).
    assert (0xDC00 <=? 0xDC00 + y = true) as -> by (apply N.leb_le; lia).
    assert (0xDC00 + y <? 0xE000 = true) as -> by (apply N.ltb_lt; lia).
    cbn [andb]. f_equal. lia.
Qed.
Lemma utf16_dec_chars cs : Forall char_ok cs → utf16_dec (cs ≫= utf16) = cs.
Proof. induction 1 as [|c cs Hc _ IH]; [done|]. cbn [mbind list_bind]. by rewrite utf16_dec_char, IH. Qed.
Lemma utf16_all cs : Forall char_ok cs → Forall (λ u, unit_ok u ∧ u ≠ 0) (cs ≫= utf16).
Proof. induction 1 as [|c cs Hc _ IH]; [by constructor|]. cbn [mbind list_bind]. apply Forall_app. split; [by apply utf16_ok|done]. Qed.
(** A well-formed name arrives as the UTF-8 encoding of its characters, whatever units
    follow a NUL. *)
Theorem C67_name cs junk : Forall char_ok cs →
  UTF16ToString (cs ≫= utf16) = cs ≫= utf8 ∧ UTF16ToString ((cs ≫= utf16) ++ 0 :: junk) = cs ≫= utf8.
Proof.
  intros H. unfold UTF16ToString. split; [by rewrite cut0_all, utf16_dec_chars by by try apply utf16_all|].
  assert (cut0 ((cs ≫= utf16) ++ 0 :: junk) = cs ≫= utf16) as ->; [|by rewrite utf16_dec_chars].
  pose proof (utf16_all cs H) as Hf. induction Hf as [|u l [_ Hu] _ IH]; [done|]. cbn. destruct (N.eqb_spec u 0); [done|]. by rewrite IH.
Qed.
(** UTF-8 can be read back. *)
Lemma byte_back x : x < 256 → N_of_ascii (ascii_of_N x) = x.
Proof. apply N_ascii_embedding. Qed.
Lemma ascii_inj x y : x < 256 → y < 256 → ascii_of_N x = ascii_of_N y → x = y.
Proof. intros Hx Hy H. apply (f_equal N_of_ascii) in H. by rewrite !byte_back in H. Qed.
Lemma cons_split {A} (x y : A) l l' : x :: l = y :: l' → x = y ∧ l = l'.
Proof. by intros [= -> ->]. Qed.
Lemma utf8_prefix c c' s s' : char_ok c → char_ok c' → utf8 c ++ s = utf8 c' ++ s' → c = c' ∧ s = s'.
Proof.
  intros (H0&_&Hm) (H0'&_&Hm'). unfold utf8.
  pose proof (N.div_mod' c 64) as A1. pose proof (N.div_mod' (c / 64) 64) as A2. pose proof (N.div_mod' (c / 4096) 64) as A3.
  pose proof (N.div_mod' c' 64) as B1. pose proof (N.div_mod' (c' / 64) 64) as B2. pose proof (N.div_mod' (c' / 4096) 64) as B3.
  rewrite !N.div_div in * by done. change (64 * 64) with 4096 in *. change (4096 * 64) with 262144 in *.
  pose proof (N.mod_lt c 64 ltac:(done)). pose proof (N.mod_lt c' 64 ltac:(done)).
  pose proof (N.mod_lt (c / 64) 64 ltac:(done)). pose proof (N.mod_lt (c' / 64) 64 ltac:(done)).
  pose proof (N.mod_lt (c / 4096) 64 ltac:(done)). pose proof (N.mod_lt (c' / 4096) 64 ltac:(done)).
  set (a1 := c / 64) in *. set (a2 := c / 4096) in *. set (a3 := c / 262144) in *.
  set (b1 := c' / 64) in *. set (b2 := c' / 4096) in *. set (b3 := c' / 262144) in *.
  set (ma1 := a1 mod 64) in *. set (ma2 := a2 mod 64) in *. set (mc := c mod 64) in *.
  set (mb1 := b1 mod 64) in *. set (mb2 := b2 mod 64) in *. set (mc' := c' mod 64) in *. clearbody a1 a2 a3 b1 b2 b3 ma1 ma2 mc mb1 mb2 mc'.
  destruct (N.ltb_spec c 0x80), (N.ltb_spec c' 0x80); try destruct (N.ltb_spec c 0x800); try destruct (N.ltb_spec c' 0x800);
    try destruct (N.ltb_spec c 0x10000); try destruct (N.ltb_spec c' 0x10000); try lia; cbn [fmap list_fmap app];
    intros E; repeat match type of E with _ :: _ = _ :: _ => let F := fresh "F" in apply cons_split in E as [F E]; apply ascii_inj in F; [|lia|lia] end;
    try lia; (split; [lia|done]).
Qed.
(** Distinct well-formed names arrive as distinct texts. *)
Theorem C67_distinct cs cs' : Forall char_ok cs → Forall char_ok cs' →
  UTF16ToString (cs ≫= utf16) = UTF16ToString (cs' ≫= utf16) → cs = cs'.
Proof.
  intros H H'. rewrite (proj1 (C67_name cs [] H)), (proj1 (C67_name cs' [] H')).
  revert cs' H'. induction H as [|c cs Hc _ IH]; intros cs' H'; destruct H' as [|c' cs' Hc' H']; cbn [mbind list_bind]; [done| | |].
  - intros E. exfalso. revert E. unfold utf8. by repeat case_match.
  - intros E. exfalso. revert E. unfold utf8. by repeat case_match.
  - intros E. apply utf8_prefix in E as [-> E]; [|done..]. f_equal. by apply IH.
Qed.
(** Names need not be well-formed on Windows, and distinct ones may arrive alike. *)
Theorem C67_surrogates_refuted :
  ∃ l l', l ≠ l' ∧ Forall (λ u, unit_ok u ∧ u ≠ 0) l ∧ Forall (λ u, unit_ok u ∧ u ≠ 0) l' ∧ UTF16ToString l = UTF16ToString l'.
Proof. exists [0xD800], [0xDC00]. split_and!; [done|repeat constructor; by vm_compute..|by vm_compute]. Qed.

(** ** The walk *)
Lemma change_length nx x : length (change_bytes nx x) = (12 + 2 * length (c_units x))%nat.
Proof. unfold change_bytes. rewrite !app_length, !le4_length, le2_length. lia. Qed.
Definition info (x : change) : fninfo := FN (c_action x) (UTF16ToString (c_units x)).
Lemma walk_change pre nx x post n fuel :
  change_ok x → u32 nx →
  walk (pre ++ change_bytes nx x ++ post) n (S fuel) (N.of_nat (length pre)) =
  if nx =? 0 then Some [info x]
  else if n <=? (N.of_nat (length pre) + nx) mod 2 ^ 32 then Some [info x]
  else match walk (pre ++ change_bytes nx x ++ post) n fuel ((N.of_nat (length pre) + nx) mod 2 ^ 32) with Some l => Some (info x :: l) | None => None end.
Proof.
  intros (Ha&Hu&Hl) Hn.
  cbn [walk]. rewrite Nat2N.id.
  assert (∀ k, drop (length pre + k) (pre ++ change_bytes nx x ++ post) = drop k (change_bytes nx x ++ post)) as Hd.
  { intros k. rewrite drop_app_ge by lia. f_equal. lia. }
  rewrite !Hd. replace (drop (length pre) (pre ++ change_bytes nx x ++ post)) with (drop 0 (change_bytes nx x ++ post)) by (rewrite <-Hd; f_equal; lia).
  assert (length (pre ++ change_bytes nx x ++ post) <? length pre + fnhdr = false)%nat as ->.
  { apply Nat.ltb_ge. rewrite !app_length, change_length. unfold fnhdr. lia. }
  set (ub := c_units x ≫= le2). set (ln := N.of_nat (2 * length (c_units x))).
  assert (change_bytes nx x ++ post = le4 nx ++ le4 (c_action x) ++ le4 ln ++ ub ++ post) as Eb by (unfold change_bytes; by rewrite <-!(assoc_L (++))).
  assert (take 4 (drop 0 (change_bytes nx x ++ post)) = le4 nx) as -> by (rewrite Eb; by apply take_app_alt).
  assert (take 4 (drop 4 (change_bytes nx x ++ post)) = le4 (c_action x)) as -> by (rewrite Eb, drop_app_alt by done; by apply take_app_alt).
  assert (take 4 (drop 8 (change_bytes nx x ++ post)) = le4 ln) as ->.
  { rewrite Eb, (assoc_L (++)), drop_app_alt by done. by apply take_app_alt. }
  assert (drop fnhdr (change_bytes nx x ++ post) = ub ++ post) as ->.
  { rewrite Eb, (assoc_L (++)), (assoc_L (++) _ (le4 ln)). by rewrite drop_app_alt. }
  assert (u32 ln) as Hln by (unfold u32, ln; lia).
  rewrite !u32_le4 by done.
  assert (ln / 2 = N.of_nat (length (c_units x))) as ->.
  { unfold ln. replace (N.of_nat (2 * length (c_units x))) with (N.of_nat (length (c_units x)) * 2) by lia. by apply N.div_mul. }
  assert (MAX_LONG_PATH <? N.of_nat (length (c_units x)) = false) as -> by (apply N.ltb_ge; unfold MAX_LONG_PATH; lia).
  replace (N.to_nat (2 * N.of_nat (length (c_units x)))) with (length ub) by (unfold ub; rewrite le2_length; lia).
  assert (length (pre ++ change_bytes nx x ++ post) <? length pre + fnhdr + length ub = false)%nat as ->.
  { apply Nat.ltb_ge. rewrite Eb, !app_length, !le4_length. unfold fnhdr. lia. }
  rewrite take_app. unfold ub. rewrite units_all by done. done.
Qed.
Lemma walk_layout l pre post fuel :
  l ≠ [] → Forall (λ x, change_ok x.1) l → (length l ≤ fuel)%nat →
  N.of_nat (length (pre ++ layout l)) < 2 ^ 32 →
  walk (pre ++ layout l ++ post) (N.of_nat (length (pre ++ layout l))) fuel (N.of_nat (length pre)) = Some (info <$> l.*1).
Proof.
  intros Hne Hok. revert pre fuel Hne. induction Hok as [|[x pad] l Hx Hok IH]; [done|]. intros pre fuel _ Hf Hb.
  destruct fuel as [|fuel]; [cbn in Hf; lia|]. cbn [length] in Hf. destruct l as [|y l].
  - cbn [layout] in *. rewrite <-!(assoc_L (++)). by rewrite walk_change.
  - set (l' := y :: l) in *. set (nx := N.of_nat (12 + 2 * length (c_units x) + length pad)).
    change (layout ((x, pad) :: l')) with (change_bytes nx x ++ pad ++ layout l') in *.
    rewrite !app_length, change_length in Hb.
    assert (N.of_nat (length pre) + nx = N.of_nat (length (pre ++ change_bytes nx x ++ pad))) as Enx.
    { rewrite !app_length, change_length. unfold nx. lia. }
    assert (0 < length (layout l'))%nat as Hpos.
    { unfold l'. destruct y as [y py]. cbn [layout]. destruct l; rewrite !app_length, change_length; lia. }
    rewrite <-!(assoc_L (++)). rewrite walk_change; [|done|unfold u32, nx; lia].
    destruct (N.eqb_spec nx 0) as [E0|_]; [unfold nx in E0; lia|].
    rewrite N.mod_small by (unfold nx; lia).
    destruct (N.leb_spec (N.of_nat (length (pre ++ change_bytes nx x ++ pad ++ layout l'))) (N.of_nat (length pre) + nx)) as [Hle|_].
    { rewrite !app_length, change_length in Hle. unfold nx in Hle. lia. }
    rewrite Enx. specialize (IH (pre ++ change_bytes nx x ++ pad) fuel).
    rewrite <-!(assoc_L (++)) in IH. rewrite IH; [done|done|lia|]. rewrite !app_length, change_length. lia.
Qed.
Lemma layout_length l : (length l ≤ length (layout l))%nat.
Proof.
  induction l as [|[x pad] l IH]; [done|]. destruct l as [|y l]; [cbn [layout length]; rewrite app_length, change_length; lia|].
  set (l' := y :: l) in *. change (layout ((x, pad) :: l')) with (change_bytes (N.of_nat (12 + 2 * length (c_units x) + length pad)) x ++ pad ++ layout l').
  cbn [length]. rewrite !app_length, change_length. lia.
Qed.
(** A read that completed with changes: they are all reported, in order, as if they had
    been sent one by one, whatever the paddings and the old contents of the buffer. *)
Theorem C67_walk dir filter l old :
  l ≠ [] → Forall (λ x, change_ok x.1) l → u32 (N.of_nat (length (layout l))) →
  completed dir filter (layout l ++ old) (N.of_nat (length (layout l))) = Some (l.*1 ≫= λ x, send1 dir filter (info x)).
Proof.
  intros Hne Hok Hb. unfold completed. pose proof (layout_length l) as Hll.
  destruct (N.eqb_spec (N.of_nat (length (layout l))) 0) as [E|_]; [destruct l; [done|]; cbn [length] in Hll; lia|].
  rewrite Nat2N.id. pose proof (walk_layout l [] old (S (length (layout l))) Hne Hok ltac:(lia) Hb) as Hw.
  cbn [app length] in Hw. change (N.of_nat 0) with 0 in Hw. rewrite Hw. cbn. f_equal. unfold loopevent.
  clear. induction l.*1 as [|x k IH]; [done|]. cbn. by rewrite IH.
Qed.
(** With well-formed names: the name of each event is the name of its change. *)
Theorem C67_events dir filter (l : list (N * list N * str)) old :
  let enc := (λ y : N * list N * str, (Ch y.1.1 (y.1.2 ≫= utf16), y.2)) <$> l in
  l ≠ [] → Forall (λ y, Forall char_ok y.1.2) l → Forall (λ x, change_ok x.1) enc → u32 (N.of_nat (length (layout enc))) →
  completed dir filter (layout enc ++ old) (N.of_nat (length (layout enc))) =
  Some (l ≫= λ y, send1 dir filter (FN y.1.1 (y.1.2 ≫= utf8))).
Proof.
  intros enc Hne Hc Hok Hb. rewrite C67_walk; [|by destruct l|done|done]. f_equal. unfold enc. clear - Hc.
  induction Hc as [|y l Hy _ IH]; [done|]. cbn. cbn in IH. rewrite IH. unfold info. cbn [c_action c_units].
  by rewrite (proj1 (C67_name _ [] Hy)).
Qed.
(** When the buffer overflowed Windows completes the read with n = 0: nothing is
    reported, not even that changes were lost. *)
Theorem C67_overflow_refuted dir filter buf : completed dir filter buf 0 = Some [].
Proof. done. Qed.

(** Any buffer: no loop, as long as the offsets do not wrap around. *)
Definition no_wrap (buf : str) : Prop :=
  ∀ p : nat, (p < length buf)%nat → N.of_nat p + u32_of (take 4 (drop p buf)) < 2 ^ 32.
Theorem C67_terminates buf n off fuel fuel' :
  no_wrap buf → off < n → (N.to_nat (n - off) ≤ fuel)%nat → (N.to_nat (n - off) ≤ fuel')%nat → walk buf n fuel off = walk buf n fuel' off.
Proof.
  intros Hw. revert off fuel'. induction fuel as [|fuel IH]; intros off fuel' Ho H1 H2; [lia|].
  destruct fuel' as [|fuel']; [lia|]. cbn [walk]. destruct (Nat.ltb_spec (length buf) (N.to_nat off + fnhdr)) as [|Hlen]; [done|].
  unfold fnhdr in Hlen. specialize (Hw (N.to_nat off) ltac:(lia)). rewrite N2Nat.id in Hw.
  destruct (MAX_LONG_PATH <? _); [done|]. destruct (length buf <? _)%nat; [done|].
  destruct (N.eqb_spec (u32_of (take 4 (drop (N.to_nat off) buf))) 0) as [|Hz]; [done|].
  rewrite N.mod_small by lia. destruct (N.leb_spec n (off + u32_of (take 4 (drop (N.to_nat off) buf)))) as [|Hn]; [done|].
  rewrite (IH _ fuel') by lia. done.
Qed.

(** Two changes, one of them with characters outside ASCII and outside the first plane,
    in a buffer with old contents. *)
Definition ex_l : list (N * list N * str) :=
  [(FILE_ACTION_ADDED, [0x61; 0x20AC; 0x1F600], b "xx"); (FILE_ACTION_REMOVED, [0x62; 0xE9], b "")].
Definition ex_enc := (λ y : N * list N * str, (Ch y.1.1 (y.1.2 ≫= utf16), y.2)) <$> ex_l.
Example C67_hyps :
  Forall (λ y : N * list N * str, Forall char_ok y.1.2) ex_l ∧ Forall (λ x : change * str, change_ok x.1) ex_enc ∧
  u32 (N.of_nat (length (layout ex_enc))) ∧ length (layout ex_enc) = 38%nat ∧
  completed (b "C:\dir") (FileNotifyChangeFileName .| Create readdcw) (layout ex_enc ++ b "old") 38 =
    Some [RdEvent (b "C:\dir") (ascii_of_N <$> [0x61; 0xE2; 0x82; 0xAC; 0xF0; 0x9F; 0x98; 0x80]) fTypeFile FileActionAdded;
          RdEvent (b "C:\dir") (ascii_of_N <$> [0x61; 0xE2; 0x82; 0xAC; 0xF0; 0x9F; 0x98; 0x80]) fTypeFile (Create readdcw);
          RdEvent (b "C:\dir") (ascii_of_N <$> [0x62; 0xC3; 0xA9]) fTypeFile FileActionRemoved] ∧
  no_wrap (layout ex_enc).
Proof.
  split_and!; [..|by vm_compute|by vm_compute|by vm_compute|].
  - repeat (apply Forall_cons_2 || apply Forall_nil_2); unfold char_ok; lia.
  - repeat constructor; cbn; try lia; by vm_compute.
  - intros p Hp. assert (Forall (λ p, N.of_nat p + u32_of (take 4 (drop p (layout ex_enc))) < 2 ^ 32) (seq 0 38)) as H.
    { apply (bool_decide_unpack _). by vm_compute. }
    rewrite Forall_forall in H. apply H. apply elem_of_seq. split; [lia|]. by replace (length (layout ex_enc)) with 38%nat in Hp by by vm_compute.
Qed.

Print Assumptions C67_name.
Print Assumptions C67_distinct.
Print Assumptions C67_surrogates_refuted.
Print Assumptions C67_walk.
Print Assumptions C67_events.
Print Assumptions C67_overflow_refuted.
Print Assumptions C67_terminates.
Print Assumptions C67_hyps.
