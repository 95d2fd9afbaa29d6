(** * Property theorems C90: the inotify watcher under every schedule of its goroutines *)
From Verif Require Import Base Event Paths Clean Inotify SpecInotify InotifyFacts InotifyTab Prop_Inotify
  InotifyPipe SpecInotifyPipe InotifyPipeFacts.
Local Open Scope N_scope.

(** ** Every record once *)
(** The batches read so far and what is still in the kernel's queue are the records queued,
    in their order. *)
Theorem C90_read ls s : prun ls s → concat (batches ls) ++ p_q s = queued ls.
Proof. intros Hr. apply (b_cat _ _ (prun_binv _ _ Hr)). Qed.
(** A batch is translated at most once, and as a whole: with the table of one moment after
    it was read.  The events made of it are sent after that moment, in order, each once and
    nothing else; all of them by the time the consumer is done with it. *)
Theorem C90_once ls s k es : prun ls s → batches ls !! k = Some es →
  PTrans k ∉ ls ∧ PDone k ∉ ls ∧ sends k ls = [] ∨
  ∃ l1 l2 s1, ls = l1 ++ PTrans k :: l2 ∧ prun l1 s1 ∧ batches l1 !! k = Some es ∧ PTrans k ∉ l1 ∧ PTrans k ∉ l2 ∧ sends k l1 = [] ∧
    sends k ls `prefix_of` sent (i_m (p_i s1)) es ∧ (PDone k ∈ ls → sends k ls = sent (i_m (p_i s1)) es).
Proof.
  intros Hr Hk. pose proof (prun_binv _ _ Hr) as B. destruct (b_all _ _ B _ _ Hk) as [H|[[j H]|[(j&l&H)|[Hd H]]]].
  - left. by destruct (b_loop _ _ B _ _ H) as [_ ?].
  - left. by destruct (b_got _ _ B _ _ _ H) as [_ ?].
  - right. destruct (b_send _ _ B _ _ _ H) as (Hd&es'&Hk'&l1&l2&s1&H1&H2&H3&H4&H5&H6&H7). assert (es' = es) as -> by congruence.
    exists l1, l2, s1. split_and!; try done. rewrite <-H7. by apply prefix_app_r.
  - right. destruct H as (_&l1&l2&s1&H1&H2&H3&H4&H5&H6&H7). rewrite app_nil_r in H7.
    exists l1, l2, s1. split_and!; try done. by rewrite H7.
Qed.
(** Nothing is sent for a batch that was not read. *)
Theorem C90_only_batches ls s k e : prun ls s → PSent k e ∈ ls → ∃ es, batches ls !! k = Some es.
Proof.
  intros Hr Hin. pose proof (prun_binv _ _ Hr) as B. destruct (batches ls !! k) as [es|] eqn:Hk; [eauto|].
  apply lookup_ge_None in Hk. rewrite (b_len _ _ B) in Hk. destruct (b_new _ _ B _ Hk) as (_&_&Hz).
  assert (e ∈ sends k ls) as Hx; [|rewrite Hz in Hx; by apply elem_of_nil in Hx].
  unfold sends. apply elem_of_list_omap. exists (PSent k e). split; [done|]. by rewrite decide_True.
Qed.
(** When nothing is left to do, every queued record is in a batch all of whose events
    have been sent. *)
Theorem C90_idle ls s : prun ls s → idle s → concat (batches ls) = queued ls ∧ ∀ k es, batches ls !! k = Some es → PDone k ∈ ls.
Proof.
  intros Hr (Hq&Hl&Hc). pose proof (prun_binv _ _ Hr) as B. split; [by rewrite <-(b_cat _ _ B), Hq, app_nil_r|].
  rewrite Forall_forall in Hc. intros k es Hk. destruct (b_all _ _ B _ _ Hk) as [H|[[j H]|[(j&l&H)|[Hd H]]]]; [congruence| | |done].
  - apply elem_of_list_lookup_2, Hc in H. done.
  - apply elem_of_list_lookup_2, Hc in H. done.
Qed.

(** ** What is reported *)
(** Every event sent was made of a record in a batch that had been read, and carries the
    name of a watched path, and an event that had been asked for, according to the calls
    that had returned at the moment of the translation (a call that had not may count as
    made or not). *)
Theorem C90_sound ls s k e : prun ls s → orderly (calls ls) → PSent k e ∈ ls →
  ∃ es t0 t3 t2 r q m, batches ls !! k = Some es ∧ ls = t0 ++ t3 ++ PTrans k :: t2 ∧ (∀ E o, PEnd E o ∉ t3) ∧ r ∈ es ∧
    itab (calls t0) !! q = Some m ∧ incl_ev (ie_event e) m ∧ ie_event e ≠ 0 ∧ ie_path e = named q (r_name r).
Proof.
  intros Hr Hor Hin. destruct (C90_only_batches _ _ _ _ Hr Hin) as [es Hk].
  assert (e ∈ sends k ls) as He.
  { unfold sends. apply elem_of_list_omap. exists (PSent k e). split; [done|]. by rewrite decide_True. }
  destruct (C90_once _ _ _ _ Hr Hk) as [(_&_&Hz)|(l1&l2&s1&->&Hr1&_&_&_&_&Hp&_)]; [rewrite Hz in He; by apply elem_of_nil in He|].
  destruct (table_exec _ _ Hr1) as (t0&t3&i0&->&Hno&Hx&Hm).
  assert (e ∈ sent (i_m i0) es) as Hs by (rewrite <-Hm; destruct Hp as [z ->]; apply elem_of_app; by left).
  rewrite <-app_assoc, calls_app in Hor. apply orderly_app in Hor.
  destruct (C38_sound _ _ _ _ Hx Hor Hs) as (r&q&m&H1&H2&H3&H4&H5).
  exists es, t0, t3, l2, r, q, m. split_and!; try done; [by rewrite <-app_assoc|]. unfold named. rewrite H5. by destruct (r_name r).
Qed.
(** Nothing that is read or translated after Unwatch of [p] has returned is reported as
    seen by the watch on [p], unless [p] is watched again. *)
Theorem C90_withdrawn l0 E p l1 k l2 s e :
  let ls := l0 ++ PEnd E (IUnwatch p) :: l1 ++ PTrans k :: l2 in
  prun ls s → orderly (calls ls) → (∀ E' e' rs, PBegin E' (IWatch p e') rs ∉ l1) → PSent k e ∈ ls →
  ∃ es t0 r q m, batches ls !! k = Some es ∧ t0 `prefix_of` l0 ++ PEnd E (IUnwatch p) :: l1 ∧ r ∈ es ∧
    itab (calls t0) !! q = Some m ∧ incl_ev (ie_event e) m ∧ ie_path e = named q (r_name r) ∧ q ≠ p.
Proof.
  intros ls Hr Hor Hnw Hin. destruct (C90_sound _ _ _ _ Hr Hor Hin) as (es&t0&t3&t2&r&q&m&H1&H2&H3&H4&H5&H6&H7&H8).
  exists es, t0, r, q, m.
  (* the translation is the one in the statement *)
  assert (t0 ++ t3 = l0 ++ PEnd E (IUnwatch p) :: l1) as Ht.
  { destruct (C90_once _ _ _ _ Hr H1) as [(Hz&_)|(a1&a2&s1&Ha&_&_&Hn1&Hn2&_)].
    - destruct Hz. subst ls. apply elem_of_app. right. right. apply elem_of_app. right. by left.
    - assert (∀ x y, ls = x ++ PTrans k :: y → x = a1) as Hu.
      { intros x y Hxy. rewrite Ha in Hxy. revert Hxy. clear - Hn1 Hn2. revert x. induction a1 as [|z a1 IH]; intros x Hxy.
        - destruct x as [|z' x]; [done|]. injection Hxy as <- ->. destruct Hn2. apply elem_of_app. right. by left.
        - destruct x as [|z' x]; [injection Hxy as -> _; destruct Hn1; by left|]. injection Hxy as <- Hxy. f_equal.
          apply IH; [|done]. intros ?. apply Hn1. by right. }
      rewrite app_assoc in H2. rewrite (Hu _ _ H2). symmetry. apply (Hu _ l2). subst ls. by rewrite <-app_assoc. }
  split_and!; try done; [rewrite <-Ht; by apply prefix_app_r|]. intros ->.
  (* all of the Unwatch is in [t0] *)
  assert (∃ l4, t0 = l0 ++ PEnd E (IUnwatch p) :: l4 ∧ l1 = l4 ++ t3) as (l4&->&->).
  { apply app_eq_app in Ht as (x&[[-> Hx]|[-> Hx]]).
    - destruct x as [|y x].
      + exists []. cbn in Hx. subst t3. destruct (H3 E (IUnwatch p)). by left.
      + injection Hx as <- ->. by exists x.
    - destruct (H3 E (IUnwatch p)). rewrite Hx. apply elem_of_app. right. by left. }
  assert (itab (calls (l0 ++ [PEnd E (IUnwatch p)])) !! p = None) as Hz.
  { subst ls. rewrite cons_middle, app_assoc in Hr. apply prun_app in Hr as [s1 Hr]. apply prun_snoc in Hr as (s0&Hr&Hs).
    rewrite calls_app, app_nil_r. inversion Hs. by eapply pending_itab. }
  apply (itab_unwatched _ l4) in Hz.
  - rewrite <-app_assoc in Hz. cbn in Hz. congruence.
  - intros E' e' rs Hin'. apply (Hnw E' e' rs), elem_of_app. by left.
Qed.

(** ** A watch that stays delivers *)
(** What a table makes of a record about something that happened to a watched file. *)
Lemma entry_complete M wd p x rs i (isdir : bool) cookie name :
  entry M wd p x → i < 12 → Raw wd (2 ^ i .| if isdir then 0x40000000 else 0) cookie name ∈ rs →
  (∀ n, (x, n) ∈ generics → has n i → ∃ e, e ∈ sent M rs ∧ ie_info e = EI x (named p name) (Some isdir) fTypeUnknown) ∧
  (x = 2 ^ i → ∃ e, e ∈ sent M rs ∧ ie_info e = EI (2 ^ i) (named p name) (Some isdir) fTypeUnknown).
Proof.
  intros (m&Hm&Hkn&Hxm) Hi Hin.
  set (sys := 2 ^ i .| (if isdir then 0x40000000 else 0)) in *. set (r := Raw wd sys cookie name) in *.
  assert (∀ j, has sys j ↔ j = i ∨ (isdir = true ∧ j = 30)) as Hsys.
  { intros j. unfold sys. rewrite has_lor, has_pow2. destruct isdir.
    - change 0x40000000 with (2 ^ 30). rewrite has_pow2. split; [intros [->| ->]; auto|intros [->|[_ ->]]; auto].
    - split; [intros [->|Hj]; [auto|by apply has_0 in Hj]|intros [->|[? _]]; [auto|done]]. }
  assert (i ≠ 30) as Hi30 by (intros ->; lia).
  assert (r_mask r .& (IN_IGNORED .| IN_Q_OVERFLOW) = 0) as H1.
  { apply zero_bits. intros j. destruct (N.testbit _ j) eqn:E; [|done]. exfalso. apply has_land in E as [E1 E2].
    change (r_mask r) with sys in E1. apply Hsys in E1. change IN_IGNORED with (2 ^ 15) in E2. change IN_Q_OVERFLOW with (2 ^ 14) in E2.
    rewrite has_lor, !has_pow2 in E2. destruct E1 as [->|[_ ->]]; [lia|destruct E2; done]. }
  assert (asks m i → r_mask r .& encode (w_mask (Wd p m)) ≠ 0) as H3.
  { intros Ha. apply nonzero_bit. exists i. apply has_land. split; [apply Hsys; auto|]. by apply has_encode. }
  assert (negb (sys .& IN_ISDIR =? 0) = isdir) as Hdir.
  { change IN_ISDIR with (2 ^ 30). rewrite land_pow2, negb_involutive. destruct (N.testbit sys 30) eqn:E.
    - apply Hsys in E as [E|[? _]]; [by destruct Hi30|done].
    - destruct isdir; [|done]. assert (has sys 30) as Hx' by (apply Hsys; auto). unfold has in Hx'. congruence. }
  assert (sys .& 0xfff = 2 ^ i) as Hone.
  { apply N.bits_inj. intros j. apply eq_iff_eq_true. change (has (sys .& 0xfff) j ↔ has (2 ^ i) j).
    rewrite has_land, Hsys, has_pow2. change 0xfff with (N.ones 12). unfold has. rewrite N.ones_spec_iff.
    split; [intros [[->|[_ ->]] Hj]; [done|lia]|intros ->; auto]. }
  split.
  - intros n Hg Hn. pose proof (transform1_Some M r (Wd p m) H1 Hm (H3 ltac:(right; eauto))) as Ht. cbn zeta in Ht. cbn [w_path w_mask] in Ht.
    assert ((decode m sys).1 = x) as Hd.
    { apply (C36_generic_exact m sys x n i Hone Hg). split; [done|]. apply nonzero_bit. exists i. apply has_land. rewrite Hsys. auto. }
    eexists. split.
    + apply elem_of_sent. exists r. split; [done|]. left. rewrite Ht. cbn [fst]. change (r_mask r) with sys. rewrite Hd.
      assert (x =? 0 = false) as ->; [|done]. apply N.eqb_neq. rewrite <-Hd. eapply C36_generic_complete; [done|done|].
      apply nonzero_bit. exists i. apply has_land. rewrite Hsys. auto.
    + unfold ie_info, r. cbn [ie_event ie_path ie_mask r_mask r_name r_wd r_cookie]. rewrite Hdir. by destruct name.
  - intros ->. assert (has m i) as Hmi by (apply Hxm, has_pow2; done).
    pose proof (transform1_Some M r (Wd p m) H1 Hm) as Ht. cbn zeta in Ht. cbn [w_path w_mask] in Ht.
    assert ((decode m sys).2 = Some (2 ^ i)) as Hd.
    { apply C36_native. split; [|apply nonzero_bit; exists i; by apply has_pow2].
      apply N.bits_inj. intros j. apply eq_iff_eq_true. change (has (2 ^ i) j ↔ has (m .& sys) j).
      rewrite has_land, Hsys, has_pow2. split; [intros ->; auto|]. intros [Hj [->|[_ ->]]]; [done|].
      apply (known_bits _ _ Hkn) in Hj. lia. }
    eexists. split.
    + apply elem_of_sent. exists r. split; [done|]. right. rewrite Ht; [cbn [snd]; change (r_mask r) with sys; by rewrite Hd|].
      apply H3. left. split; [done|]. rewrite has_All. lia.
    + unfold ie_info, r. cbn [ie_event ie_path ie_mask r_mask r_name r_wd r_cookie]. rewrite Hdir. by destruct name.
Qed.
Lemma ended_entry l0 E p e s x : prun (l0 ++ [PEnd E (IWatch p e)]) s → incl_ev x e →
  p_call s = None ∧ ∃ wd, entry (i_m (p_i s)) wd p x.
Proof.
  intros Hr Hx. pose proof (virt_exec _ _ Hr) as Hex. pose proof (iexec_inv _ _ Hex) as Hiv. apply prun_snoc in Hr as (s0&Hr0&Hs).
  remember (PEnd E (IWatch p e)) as l eqn:El. destruct Hs; try discriminate El. injection El as -> ->.
  destruct (call_shape _ _ _ _ _ Hr0 H) as [wd ->]. split; [done|]. exists wd, e. cbn. rewrite lookup_insert. split_and!; [done| |done].
  eapply (iv_m _ _ Hiv wd p e). cbn. by rewrite lookup_insert.
Qed.
Lemma keeps_app l1 l2 p x : keeps (l1 ++ l2) p x → keeps l1 p x ∧ keeps l2 p x.
Proof. intros H. split; intros E o rs Hin; apply (H E o rs), elem_of_app; auto. Qed.
(** The moment of a report after a Watch that stays: the descriptor. *)
Lemma watch_kept l0 E p e l1 s x : prun (l0 ++ PEnd E (IWatch p e) :: l1) s → orderly (calls (l0 ++ PEnd E (IWatch p e) :: l1)) →
  keeps l1 p x → incl_ev x e → ∃ wd, entry (i_m (p_i s)) wd p x ∧ entry (i_m (virt s)) wd p x.
Proof.
  intros Hr Hor Hk Hx. rewrite cons_middle, app_assoc in Hr, Hor. apply prun_split in Hr as (s0&Hr0&Hss).
  destruct (ended_entry _ _ _ _ _ _ Hr0 Hx) as (Hc&wd&He). exists wd.
  eapply entry_kept; [exact Hr0|exact Hss|done|done|]. unfold virt. rewrite Hc. done.
Qed.
(** Once a Watch on [p] has returned nil, and as long as the watch is not withdrawn and [x]
    stays asked for, the kernel reports whatever [x] stands for and happens to the file. *)
Theorem C90_reported l0 E p e l1 s x i f isdir cookie name :
  let ls := l0 ++ PEnd E (IWatch p e) :: l1 in
  prun ls s → orderly (calls ls) → keeps l1 p x → incl_ev x e → asks x i →
  ifile (calls ls) !! p = Some (f, true) →
  ∃ r, kernel_reports (p_i s) f (2 ^ i) isdir cookie name r.
Proof.
  intros ls Hr Hor Hk Hx Ha Hf. destruct (watch_kept _ _ _ _ _ _ _ Hr Hor Hk Hx) as (wd&_&m&Hm&Hkn&Hxm).
  pose proof (virt_exec _ _ Hr) as Hex. pose proof (iexec_orderly _ _ Hex Hor) as Hov.
  destruct (ov_file _ _ Hov _ _ _ Hm) as (f'&lv&Hf'&Hkk). fold ls in Hf'. rewrite Hf in Hf'. injection Hf' as <- <-.
  assert (i_k (virt s) = i_k (p_i s)) as Hki by (unfold virt; destruct (p_call s) as [[[? ?] ?]|]; done).
  rewrite Hki in Hkk. eexists _, wd, _. split_and!; [exact Hkk| |reflexivity].
  apply nonzero_bit. exists i. apply has_land. split; [by apply has_pow2|]. apply has_encode.
  destruct Ha as [[Ha1 Ha2]|(g&n&Hg&Hgx&Hn)]; [left; split; [by apply Hxm|done]|right; exists g, n; split_and!; [done| |done]].
  clear - Hgx Hxm. bits.
Qed.
(** Where a queued record goes. *)
Lemma queued_done la s1 lb s r : prun la s1 → psteps s1 lb s → idle s → r ∈ p_q s1 →
  ∃ k es s2 lc l2, lb = lc ++ PTrans k :: l2 ∧ psteps s1 lc s2 ∧ r ∈ es ∧ (∀ e, e ∈ sent (i_m (p_i s2)) es → PSent k e ∈ l2).
Proof.
  intros Hra Hss Hid Hq. pose proof (prun_psteps _ _ _ _ Hra Hss) as Hr.
  assert (concat (batches lb) = p_q s1 ++ queued lb) as Hc.
  { destruct (C90_idle _ _ Hr Hid) as [Hc _]. rewrite batches_app, concat_app, queued_app, <-(C90_read _ _ Hra), <-app_assoc in Hc.
    by apply app_inv_head in Hc. }
  assert (r ∈ concat (batches lb)) as Hin by (rewrite Hc; apply elem_of_app; by left).
  apply elem_of_list_In, in_concat in Hin as (es&Hes%elem_of_list_In&Hres%elem_of_list_In). apply elem_of_list_lookup in Hes as [k Hk].
  set (k' := (length (batches la) + k)%nat).
  assert (batches (la ++ lb) !! k' = Some es) as Hk'.
  { rewrite batches_app, lookup_app_r by (unfold k'; lia). unfold k'. by replace (length (batches la) + k - length (batches la))%nat with k by lia. }
  destruct (C90_idle _ _ Hr Hid) as [_ Hdone]. specialize (Hdone _ _ Hk').
  destruct (C90_once _ _ _ _ Hr Hk') as [(_&?&_)|(l1&l2&s2&Heq&Hr1&Hb1&_&_&Hz&_&Hd)]; [done|]. specialize (Hd Hdone).
  assert (∃ lc, l1 = la ++ lc ∧ lb = lc ++ PTrans k' :: l2) as (lc&->&->).
  { apply app_eq_app in Heq as (y&[[-> Hy]|[-> Hy]]).
    - assert (length (batches l1) ≤ k')%nat as Hle; [unfold k'; rewrite batches_app, app_length; lia|].
      apply lookup_lt_Some in Hb1. lia.
    - by exists y. }
  apply psteps_app in Hss as (s3&Hss&_). pose proof (prun_psteps _ _ _ _ Hra Hss) as Hr3.
  assert (p_i s3 = p_i s2) as Hi by (by injection (run_core _ _ _ Hr3 Hr1)).
  exists k', es, s3, lc, l2. split_and!; [done|done|done|]. rewrite Hi, <-Hd. intros e He.
  rewrite app_assoc, sends_app, Hz in He. apply elem_of_sends in He. by apply elem_of_cons in He as [?|?].
Qed.
Lemma delivered_from l0 p l1 l2 s wd x i f (isdir : bool) cookie name r rs :
  let ls := l0 ++ l1 ++ PReport f (2 ^ i) isdir cookie name r rs :: l2 in
  (∀ s0, prun l0 s0 → entry (i_m (p_i s0)) wd p x ∧ entry (i_m (virt s0)) wd p x) →
  prun ls s → idle s → orderly (calls ls) → ifile (calls (l0 ++ l1)) !! p = Some (f, true) → keeps (l1 ++ l2) p x →
  ∃ k es M, entry M wd p x ∧ Raw wd (2 ^ i .| if isdir then 0x40000000 else 0) cookie name ∈ es ∧
    ∀ ev, ev ∈ sent M es → PSent k ev ∈ l2.
Proof.
  intros ls Hent Hr Hid Hor Hf Hk. apply keeps_app in Hk as [Hk1 Hk2].
  set (la := l0 ++ l1) in *. set (R := PReport f (2 ^ i) isdir cookie name r rs) in *.
  assert (ls = la ++ [R] ++ l2) as Hls by (subst ls la; rewrite <-app_assoc; done). rewrite Hls in *. clear Hls ls.
  rewrite app_assoc in Hr, Hor. apply prun_split in Hr as (s1&Hr1&Hss). pose proof Hr1 as Hr1'. apply prun_snoc in Hr1' as (s0&Hr0&HR).
  pose proof Hor as Hor1. rewrite calls_app in Hor1. apply orderly_app in Hor1. pose proof Hor1 as Hor0. rewrite calls_app in Hor0. apply orderly_app in Hor0.
  assert (entry (i_m (p_i s0)) wd p x ∧ entry (i_m (virt s0)) wd p x) as (He&Hev).
  { pose proof Hr0 as Hr0'. apply prun_split in Hr0' as (s00&Hr00&Hss0). eapply entry_kept; [exact Hr00|exact Hss0|done|done|by apply Hent]. }
  assert (entry (i_m (p_i s1)) wd p x ∧ entry (i_m (virt s1)) wd p x ∧ r ∈ p_q s1 ∧ kernel_reports (p_i s0) f (2 ^ i) isdir cookie name r) as (He1&Hev1&Hq&Hkr).
  { clear Hss Hr1. subst R. remember (PReport f (2 ^ i) isdir cookie name r rs) as R eqn:ER. destruct HR; try discriminate ER.
    injection ER as -> -> -> -> -> -> ->. cbn [p_i p_q]. split_and!; try done.
    apply elem_of_app. destruct H0 as [->|[-> Hlast]]; [right; by left|left]. apply last_Some in Hlast as [l' ->]. apply elem_of_app. right. by left. }
  assert (r = Raw wd (2 ^ i .| if isdir then 0x40000000 else 0) cookie name) as Hreq.
  { destruct Hkr as (wd'&m'&Hk&_&->). f_equal. pose proof (virt_exec _ _ Hr0) as Hex.
    pose proof (iexec_inv _ _ Hex) as Hiv. pose proof (iexec_orderly _ _ Hex Hor0) as Hov.
    destruct Hev as (m&Hm&_). destruct (ov_file _ _ Hov _ _ _ Hm) as (f'&lv&Hf'&Hkk). rewrite Hf in Hf'. injection Hf' as <- <-.
    assert (i_k (virt s0) = i_k (p_i s0)) as Hki by (unfold virt; destruct (p_call s0) as [[[? ?] ?]|]; done).
    rewrite <-Hki in Hk. by eapply (iv_ino _ _ Hiv). }
  destruct (queued_done _ _ _ _ _ Hr1 Hss Hid Hq) as (k&es&s2&lc&l3&->&Hsc&Hres&Hsent).
  exists k, es, (i_m (p_i s2)). split_and!.
  - eapply entry_kept; [exact Hr1|exact Hsc| | |done].
    + rewrite app_assoc, calls_app in Hor. by apply orderly_app in Hor.
    + by apply keeps_app in Hk2 as [? _].
  - by rewrite <-Hreq.
  - intros ev Hin. apply elem_of_app. right. right. by apply Hsent.
Qed.
Lemma delivered_entry l0 E p e l1 l2 s x i f (isdir : bool) cookie name r rs :
  let ls := l0 ++ PEnd E (IWatch p e) :: l1 ++ PReport f (2 ^ i) isdir cookie name r rs :: l2 in
  prun ls s → idle s → orderly (calls ls) → ifile (calls (l0 ++ PEnd E (IWatch p e) :: l1)) !! p = Some (f, true) →
  keeps (l1 ++ l2) p x → incl_ev x e →
  ∃ wd k es M, entry M wd p x ∧ Raw wd (2 ^ i .| if isdir then 0x40000000 else 0) cookie name ∈ es ∧
    ∀ ev, ev ∈ sent M es → PSent k ev ∈ l2.
Proof.
  intros ls Hr Hid Hor Hf Hk Hx. subst ls. rewrite cons_middle, app_assoc in Hr, Hor, Hf.
  pose proof Hr as Hr0. apply prun_split in Hr0 as (s0&Hr0&_). destruct (ended_entry _ _ _ _ _ _ Hr0 Hx) as (Hc&wd&He). exists wd.
  eapply delivered_from; [|exact Hr|exact Hid|exact Hor|exact Hf|exact Hk].
  intros s1 Hr1. pose proof (run_core _ _ _ Hr0 Hr1) as Hcore. injection Hcore as Hi Hc1.
  unfold virt. rewrite <-Hc1, Hc, <-Hi. done.
Qed.
(** And it is sent in the end: once a Watch on [p] has returned nil, and as long as the
    watch is not withdrawn and the event stays asked for, something that happens to the file
    and is reported by the kernel is sent on as that event, with the name, by the time
    nothing is left to do; whatever other calls are made and whatever the schedule, and even
    if the file goes meanwhile. *)
Theorem C90_delivered l0 E p e l1 l2 s g n i f isdir cookie name r rs :
  let ls := l0 ++ PEnd E (IWatch p e) :: l1 ++ PReport f (2 ^ i) isdir cookie name r rs :: l2 in
  prun ls s → idle s → orderly (calls ls) → ifile (calls (l0 ++ PEnd E (IWatch p e) :: l1)) !! p = Some (f, true) →
  keeps (l1 ++ l2) p g → incl_ev g e → (g, n) ∈ generics → has n i →
  ∃ k ev, PSent k ev ∈ l2 ∧ ie_info ev = EI g (named p name) (Some isdir) fTypeUnknown.
Proof.
  intros ls Hr Hid Hor Hf Hk Hg Hgen Hn.
  assert (i < 12) as Hi.
  { revert Hgen Hn. unfold generics. rewrite !elem_of_cons, elem_of_nil. intros H Hn.
    assert (∀ x, x .& N.ones 12 = x → has x i → i < 12) as Hlt.
    { intros x <- [_ Hi]%has_land. unfold has in Hi. by apply N.ones_spec_iff in Hi. }
    repeat (destruct H as [[= -> ->]|H]); [..|done]; (eapply Hlt; [|exact Hn]); by vm_compute. }
  destruct (delivered_entry l0 E p e l1 l2 s g i f isdir cookie name r rs Hr Hid Hor Hf Hk Hg) as (wd&k&es&M&He&Hin&Hs).
  destruct (entry_complete M wd p g es i isdir cookie name He Hi Hin) as [Hc _].
  destruct (Hc n Hgen Hn) as (ev&Hev&Hie). exists k, ev. split; [by apply Hs|done].
Qed.
(** The same for one of inotify's own events. *)
Theorem C90_delivered_native l0 E p e l1 l2 s i f isdir cookie name r rs :
  let ls := l0 ++ PEnd E (IWatch p e) :: l1 ++ PReport f (2 ^ i) isdir cookie name r rs :: l2 in
  prun ls s → idle s → orderly (calls ls) → ifile (calls (l0 ++ PEnd E (IWatch p e) :: l1)) !! p = Some (f, true) →
  keeps (l1 ++ l2) p (2 ^ i) → has e i → i < 12 →
  ∃ k ev, PSent k ev ∈ l2 ∧ ie_info ev = EI (2 ^ i) (named p name) (Some isdir) fTypeUnknown.
Proof.
  intros ls Hr Hid Hor Hf Hk Hg Hi.
  destruct (delivered_entry l0 E p e l1 l2 s (2 ^ i) i f isdir cookie name r rs Hr Hid Hor Hf Hk) as (wd&k&es&M&He&Hin&Hs); [by apply incl_pow2|].
  destruct (entry_complete M wd p (2 ^ i) es i isdir cookie name He Hi Hin) as [_ Hc].
  destruct (Hc eq_refl) as (ev&Hev&Hie). exists k, ev. split; [by apply Hs|done].
Qed.

(** ** Progress *)
(** As long as something is left to do one of the goroutines can take a step, and no
    schedule keeps them busy for ever while the kernel queues nothing and no read fails. *)
Definition work (l : plab) : Prop :=
  match l with PRead _ es => es ≠ [] | PTrans _ | PSent _ _ | PDone _ | PTau => True | _ => False end.
Lemma istep_open E s o s' r : i_open s = true → istep E s o = (s', r) → o ≠ IClose → i_open s' = true.
Proof.
  intros Ho Hst Hc. destruct o as [p e|p| |f]; cbn [istep] in Hst; [| |done|by injection Hst as <- _].
  - unfold i_watch, lazyinit in Hst. destruct (negb _); [by injection Hst as <- _|]. rewrite Ho in Hst. destruct (ie_ino E); [|by injection Hst as <- _].
    unfold kadd in Hst. destruct (kfind _ _); by injection Hst as <- _.
  - unfold i_unwatch in Hst. destruct (head _) as [[? ?]|]; [|by injection Hst as <- _]. destruct (ie_ok E); by injection Hst as <- _.
Qed.
Lemma queue_open ls s : prun ls s → (p_q s ≠ [] → i_open (p_i s) = true) ∧ length (p_cons s) = 2%nat.
Proof.
  induction 1 as [|ls s l s' Hr [IH1 IH2] Hs]; [done|].
  pose proof (virt_exec _ _ Hr) as Hex. pose proof (iexec_inv _ _ Hex) as Hiv.
  assert (i_open (virt s) = i_open (p_i s)) as Hvo by (unfold virt; destruct (p_call s) as [[[? ?] ?]|]; done).
  assert (i_k (virt s) = i_k (p_i s)) as Hvk by (unfold virt; destruct (p_call s) as [[[? ?] ?]|]; done).
  assert (∀ wd x, i_k (p_i s) !! wd = Some x → i_open (p_i s) = true) as Hko.
  { intros wd x Hx. destruct (i_open (p_i s)) eqn:Eo; [done|]. destruct (iv_closed _ _ Hiv) as [_ Hz]; [by rewrite Hvo|].
    rewrite Hvk in Hz. by rewrite Hz, lookup_empty in Hx. }
  assert (∀ k', ignored_of (i_k (p_i s)) k' ≠ [] → i_open (p_i s) = true) as Hig.
  { intros k' Hx. unfold ignored_of in Hx. destruct (map_to_list _) as [|[wd x] l'] eqn:El; [done|].
    assert ((wd, x) ∈ map_to_list (filter (λ x, k' !! x.1 = None) (i_k (p_i s)))) as Hy by (rewrite El; by left).
    apply elem_of_map_to_list, map_filter_lookup_Some in Hy as [Hy _]. by eapply Hko. }
  destruct Hs as [s E o i u HE Hc Hb|s E o u Hc|s E o i HE Hc Ho1 Ho2 Hst|s f ev isdir cookie name r rs Hk Hrs|s rs Hro Hrs|s f i|s es q Hl Ho Hq|s k es j Hl Hj|s k es j Hj|s k e l j Hj|s k j Hj].
  all: cbn [p_q p_i p_cons]; rewrite ?insert_length; split; try done.
  - intros Hq. assert (i_open (p_i s) = true) as Ho.
    { destruct (p_q s); [by apply (Hig (i_k i))|by apply IH1]. }
    assert (o ≠ IClose) as Hoc by (by intros ->). apply begin_istep in Hb as [Hst _].
    by apply (istep_open _ _ _ _ _ Ho) in Hst.
  - intros Hq. eapply istep_open; [by apply IH1|done|done].
  - intros Hq. destruct Hk as (wd&m&Hk&_). by eapply Hko.
  - intros Hq. cbn. destruct (p_q s); [by eapply Hig|by apply IH1].
Qed.
Theorem C90_progress ls s : prun ls s → ¬ idle s → ∃ l s', work l ∧ pstep s l s'.
Proof.
  intros Hr Hn. destruct (queue_open _ _ Hr) as [Ho Hlen].
  assert (Forall (λ c, c = QWait) (p_cons s) ∨ ∃ j c, p_cons s !! j = Some c ∧ c ≠ QWait) as [Hw|(j&c&Hj&Hc)].
  { generalize (p_cons s). intros l. induction l as [|c l [IH|(j&c'&Hj&Hc')]]; [by left| |right; by exists (S j), c'].
    destruct c; [left; by constructor|right..]; eexists 0%nat, _; (split; [reflexivity|done]). }
  - destruct (p_loop s) as [|k es] eqn:El.
    + destruct (p_q s) as [|r q] eqn:Eq; [destruct Hn; done|].
      eexists _, _. split; [|eapply (ps_read s (r :: q) []); [done|by apply Ho|by rewrite app_nil_r]]. done.
    + destruct (p_cons s) as [|c l] eqn:Ec; [done|]. apply Forall_cons_1 in Hw as [-> _].
      eexists _, _. split; [|eapply (ps_give s k es 0); [done|by rewrite Ec]]. done.
  - destruct c as [|k es|k [|e l]]; [done|..].
    + eexists _, _. split; [|by eapply ps_trans]. done.
    + eexists _, _. split; [|by eapply ps_done]. done.
    + eexists _, _. split; [|by eapply ps_sent]. done.
Qed.
Definition cons_left (c : qcons) : nat :=
  match c with QWait => 0 | QGot _ es => 2 * length es + 2 | QSend _ l => S (length l) end.
Definition left (s : pst) : nat :=
  6 * length (p_q s) + match p_loop s with QPoll => 0 | QGive _ es => 2 * length es + 3 end + sum_list (cons_left <$> p_cons s).
Lemma sum_insert (l : list nat) j x y : l !! j = Some x → (sum_list (<[j := y]> l) + x = sum_list l + y)%nat.
Proof. revert j. induction l as [|z l IH]; intros [|j] H; try done.
  - injection H as ->. change (y + sum_list l + x = x + sum_list l + y)%nat. lia.
  - specialize (IH j H). change (z + sum_list (<[j := y]> l) + x = z + sum_list l + y)%nat. lia.
Qed.
Lemma sent_length m rs : (length (sent m rs) ≤ 2 * length rs)%nat.
Proof.
  unfold sent, transform. assert (∀ l : list (option ievent), length (omap id l) ≤ length l)%nat as H.
  { intros l. induction l as [|[x|] l IH]; [done|..]; cbn [omap list_omap length id]; cbn in IH |- *; lia. }
  etrans; [apply H|]. rewrite app_length, !fmap_length. lia.
Qed.
Theorem C90_no_endless_work (f : nat → pst) : ¬ ∀ k, ∃ l, work l ∧ pstep (f k) l (f (S k)).
Proof.
  intros H. assert (∀ s l s', work l → pstep s l s' → (left s' < left s)%nat) as Hdec.
  { intros s l s' Hw Hs. unfold left.
    assert (∀ j c c', p_cons s !! j = Some c → (sum_list (cons_left <$> <[j := c']> (p_cons s)) + cons_left c = sum_list (cons_left <$> p_cons s) + cons_left c')%nat) as Hsum.
    { intros j c c' Hj. rewrite list_fmap_insert. apply sum_insert. by rewrite list_lookup_fmap, Hj. }
    destruct Hs as [s E o i u HE Hc Hb|s E o u Hc|s E o i HE Hc Ho1 Ho2 Hst|s f0 ev isdir cookie name r rs Hk Hrs|s rs Hro Hrs|s f0 i|s es q Hl Ho Hq|s k es j Hl Hj|s k es j Hj|s k e l j Hj|s k j Hj]; try done.
    all: cbn [p_q p_loop p_cons].
    - rewrite Hl, Hq, app_length. destruct es; [done|]. cbn [length]. lia.
    - rewrite Hl. specialize (Hsum _ _ (QGot k es) Hj). cbn [cons_left] in Hsum. lia.
    - specialize (Hsum _ _ (QSend k (sent (i_m (p_i s)) es)) Hj). cbn [cons_left] in Hsum. pose proof (sent_length (i_m (p_i s)) es). lia.
    - specialize (Hsum _ _ (QSend k l) Hj). cbn [cons_left length] in Hsum. lia.
    - specialize (Hsum _ _ QWait Hj). cbn [cons_left length] in Hsum. lia. }
  assert (∀ k, left (f k) + k ≤ left (f 0%nat))%nat as Hle.
  { induction k as [|k IH]; [lia|]. destruct (H k) as (l&Hw&Hs). pose proof (Hdec _ _ _ Hw Hs). lia. }
  specialize (Hle (S (left (f 0%nat)))). lia.
Qed.

(** ** Instances *)
Inductive chain : pst → list plab → pst → Prop :=
  | ch_nil s : chain s [] s
  | ch_cons s l s1 ls s2 : pstep s l s1 → chain s1 ls s2 → chain s (l :: ls) s2.
Lemma chain_run s ls s' l0 : prun l0 s → chain s ls s' → prun (l0 ++ ls) s'.
Proof.
  intros H0 H. revert l0 H0. induction H as [s|s l s1 ls s2 Hs _ IH]; intros l0 H0; [by rewrite app_nil_r|].
  rewrite cons_middle, app_assoc. apply IH. by eapply prun_step.
Qed.
Lemma pstep_eq s l s1 l' s2 : pstep s l s1 → l = l' → s1 = s2 → pstep s l' s2.
Proof. by intros H -> ->. Qed.
Ltac sh := vm_compute; reflexivity.
Ltac st tac := eapply ch_cons; [eapply pstep_eq; [tac|sh|sh]|].
Ltac s_begin E o := eapply (ps_begin _ E o); [by intros ?|sh|sh].
Ltac s_end := eapply ps_end; sh.
Ltac s_report f ev nm wd := eapply (ps_report _ f ev false 0 nm); [exists wd; eexists; split_and!; [sh|by vm_compute|reflexivity]|by left].
Ltac s_read n := idtac; match goal with |- pstep ?s _ _ => eapply (ps_read s (take n (p_q s)) (drop n (p_q s))); [sh|sh|sh] end.
Ltac s_give j := eapply (ps_give _ _ _ j); sh.
Ltac s_trans j := eapply (ps_trans _ _ _ j); sh.
Ltac s_sent j := eapply (ps_sent _ _ _ _ j); sh.
Ltac s_done j := eapply (ps_done _ _ j); sh.

(** /d is watched for Create and Remove; a file x is created in it and removed; the two
    records are read in two batches. *)
Definition rcreate : raw := Raw 1 InCreate 0 (b "x").
Definition rdelete : raw := Raw 1 InDelete 0 (b "x").
Definition ecreate : ievent := IE 1 InCreate 0 (b "/d/x") ICreate.
Definition edelete : ievent := IE 1 InDelete 0 (b "/d/x") IRemove.
Definition wd_d : iop := IWatch (b "/d") (ICreate .| IRemove).
Definition ls_swap : list plab := [
  PBegin (env_at 5) wd_d []; PEnd (env_at 5) wd_d;
  PReport 5 InCreate false 0 (b "x") rcreate [rcreate]; PRead 0 [rcreate]; PTau;
  PReport 5 InDelete false 0 (b "x") rdelete [rdelete]; PRead 1 [rdelete]; PTau;
  PTrans 1; PSent 1 edelete; PDone 1; PTrans 0; PSent 0 ecreate; PDone 0].
Lemma run_swap : ∃ s, prun ls_swap s ∧ idle s.
Proof.
  eexists. split.
  - apply (chain_run pinit ls_swap _ []); [constructor|]. unfold ls_swap, ecreate, edelete, rcreate, rdelete.
    st ltac:(s_begin (env_at 5) wd_d). st s_end. st ltac:(s_report 5%positive InCreate (b "x") 1%Z). st ltac:(s_read 1%nat). st ltac:(s_give 0%nat).
    st ltac:(s_report 5%positive InDelete (b "x") 1%Z). st ltac:(s_read 1%nat). st ltac:(s_give 1%nat).
    st ltac:(s_trans 1%nat). st ltac:(s_sent 1%nat). st ltac:(s_done 1%nat).
    st ltac:(s_trans 0%nat). st ltac:(s_sent 0%nat). st ltac:(s_done 0%nat). constructor.
  - split_and!; [done|done|by repeat constructor].
Qed.
(** The events need not be sent in the order in which things happened: of the two
    consumers the one with the later batch may be faster. *)
Definition events (ls : list plab) : list ievent := omap (λ l, match l with PSent _ e => Some e | _ => None end) ls.
Theorem C90_order_refuted : ∃ ls s, prun ls s ∧ idle s ∧ queued ls = [rcreate; rdelete] ∧
  (ie_info <$> events ls) = [EI IRemove (b "/d/x") (Some false) fTypeUnknown; EI ICreate (b "/d/x") (Some false) fTypeUnknown].
Proof. destruct run_swap as (s&Hr&Hi). exists ls_swap, s. split_and!; [done|done|by vm_compute|by vm_compute]. Qed.
(** An event may be sent after Unwatch has returned: it had been made before. *)
Definition ls_late : list plab := [
  PBegin (env_at 5) wd_d []; PEnd (env_at 5) wd_d;
  PReport 5 InCreate false 0 (b "x") rcreate [rcreate]; PRead 0 [rcreate]; PTau; PTrans 0;
  PBegin (env_at 5) (IUnwatch (b "/d")) [Raw 1 IN_IGNORED 0 []]; PEnd (env_at 5) (IUnwatch (b "/d"));
  PSent 0 ecreate].
Theorem C90_late_refuted : ∃ l1 E l2 s, prun (l1 ++ PEnd E (IUnwatch (b "/d")) :: l2) s ∧
  PSent 0 ecreate ∈ l2 ∧ ie_info ecreate = EI ICreate (b "/d/x") (Some false) fTypeUnknown ∧ ∀ E' o rs, PBegin E' o rs ∉ l2.
Proof.
  eexists (take 7 ls_late), (env_at 5), (drop 8 ls_late), _. split_and!.
  - apply (chain_run pinit ls_late _ []); [constructor|]. unfold ls_late, ecreate, rcreate.
    st ltac:(s_begin (env_at 5) wd_d). st s_end. st ltac:(s_report 5%positive InCreate (b "x") 1%Z). st ltac:(s_read 1%nat). st ltac:(s_give 0%nat).
    st ltac:(s_trans 0%nat). st ltac:(s_begin (env_at 5) (IUnwatch (b "/d"))). st s_end. st ltac:(s_sent 0%nat). constructor.
  - by left.
  - by vm_compute.
  - intros E' o rs H. cbn in H. by apply elem_of_list_singleton in H.
Qed.
(** What happens before Watch has returned may be lost even if the kernel reported it: the
    descriptor is not in the table yet. *)
Definition ls_early : list plab := [
  PBegin (env_at 5) wd_d []; PReport 5 InCreate false 0 (b "x") rcreate [rcreate]; PRead 0 [rcreate]; PTau; PTrans 0;
  PEnd (env_at 5) wd_d; PDone 0].
Theorem C90_early_refuted : ∃ l1 E l2 l3 s, prun (l1 ++ PBegin E wd_d [] :: l2 ++ PEnd E wd_d :: l3) s ∧ idle s ∧
  PReport 5 InCreate false 0 (b "x") rcreate [rcreate] ∈ l2 ∧ events (l1 ++ PBegin E wd_d [] :: l2 ++ PEnd E wd_d :: l3) = [].
Proof.
  eexists [], (env_at 5), (take 4 (drop 1 ls_early)), [PDone 0], _. split_and!.
  - apply (chain_run pinit ls_early _ []); [constructor|]. unfold ls_early, rcreate.
    st ltac:(s_begin (env_at 5) wd_d). st ltac:(s_report 5%positive InCreate (b "x") 1%Z). st ltac:(s_read 1%nat). st ltac:(s_give 0%nat).
    st ltac:(s_trans 0%nat). st s_end. st ltac:(s_done 0%nat). constructor.
  - split_and!; [done|done|by repeat constructor].
  - by left.
  - by vm_compute.
Qed.
(** The hypotheses of the theorems above are met: in the run [ls_swap] by the creation of x, ... *)
Definition R_create : plab := PReport 5 InCreate false 0 (b "x") rcreate [rcreate].
Definition l1_swap : list plab := [].
Definition l2_swap : list plab := drop 3 ls_swap.
Example C90_ex : ∃ s, prun ls_swap s ∧ idle s ∧ orderly (calls ls_swap) ∧
  ls_swap = [PBegin (env_at 5) wd_d []] ++ PEnd (env_at 5) wd_d :: l1_swap ++ R_create :: l2_swap ∧
  ifile (calls ([PBegin (env_at 5) wd_d []] ++ PEnd (env_at 5) wd_d :: l1_swap)) !! b "/d" = Some (5%positive, true) ∧
  keeps (l1_swap ++ l2_swap) (b "/d") ICreate ∧ incl_ev ICreate (ICreate .| IRemove) ∧ asks ICreate 8 ∧ InCreate = 2 ^ 8 ∧
  batches ls_swap = [[rcreate]; [rdelete]] ∧ PSent 0 ecreate ∈ l2_swap.
Proof.
  destruct run_swap as (s&Hr&Hi). exists s. split_and!; [done|done| |done|by vm_compute| | | |done|by vm_compute|].
  - apply orderly_check. intros k x Hk. do 1 (destruct k as [|k]; [injection Hk as <-; by vm_compute|]). done.
  - intros E o rs Hin. unfold l1_swap, l2_swap, ls_swap in Hin. cbn in Hin. repeat (apply elem_of_cons in Hin as [Hin|Hin]; [done|]). by apply elem_of_nil in Hin.
  - clear. bits.
  - right. exists ICreate, (0x100 .| 0x80). split_and!; [by left|clear; bits|by vm_compute].
  - unfold l2_swap, ls_swap. cbn. repeat (first [by left|right]).
Qed.
(** ... and after an Unwatch by a batch that was read but not yet translated: nothing of it
    is sent. *)
Definition ls_drop : list plab := [
  PBegin (env_at 5) wd_d []; PEnd (env_at 5) wd_d; PBegin (env_at 6) (IWatch (b "/e") ICreate) []; PEnd (env_at 6) (IWatch (b "/e") ICreate);
  PReport 5 InCreate false 0 (b "x") rcreate [rcreate]; PReport 6 InCreate false 0 (b "y") (Raw 2 InCreate 0 (b "y")) [Raw 2 InCreate 0 (b "y")];
  PRead 0 [rcreate; Raw 2 InCreate 0 (b "y")]; PTau;
  PBegin (env_at 5) (IUnwatch (b "/d")) [Raw 1 IN_IGNORED 0 []]; PEnd (env_at 5) (IUnwatch (b "/d"));
  PTrans 0; PSent 0 (IE 2 InCreate 0 (b "/e/y") ICreate); PDone 0].
Example C90_withdrawn_ex : ∃ s, prun ls_drop s ∧ orderly (calls ls_drop) ∧
  ls_drop = take 9 ls_drop ++ PEnd (env_at 5) (IUnwatch (b "/d")) :: [] ++ PTrans 0 :: drop 11 ls_drop ∧
  (ie_path <$> events ls_drop) = [b "/e/y"].
Proof.
  eexists. split_and!; [| |done|by vm_compute].
  - apply (chain_run pinit ls_drop _ []); [constructor|]. unfold ls_drop, rcreate.
    st ltac:(s_begin (env_at 5) wd_d). st s_end. st ltac:(s_begin (env_at 6) (IWatch (b "/e") ICreate)). st s_end.
    st ltac:(s_report 5%positive InCreate (b "x") 1%Z). st ltac:(s_report 6%positive InCreate (b "y") 2%Z). st ltac:(s_read 2%nat). st ltac:(s_give 0%nat).
    st ltac:(s_begin (env_at 5) (IUnwatch (b "/d"))). st s_end. st ltac:(s_trans 0%nat). st ltac:(s_sent 0%nat). st ltac:(s_done 0%nat). constructor.
  - apply orderly_check. intros k x Hk. do 3 (destruct k as [|k]; [injection Hk as <-; by vm_compute|]). done.
Qed.

Print Assumptions C90_read.
Print Assumptions C90_once.
Print Assumptions C90_only_batches.
Print Assumptions C90_idle.
Print Assumptions C90_sound.
Print Assumptions C90_withdrawn.
Print Assumptions C90_reported.
Print Assumptions C90_delivered.
Print Assumptions C90_delivered_native.
Print Assumptions C90_progress.
Print Assumptions C90_no_endless_work.
Print Assumptions C90_order_refuted.
Print Assumptions C90_late_refuted.
Print Assumptions C90_early_refuted.
