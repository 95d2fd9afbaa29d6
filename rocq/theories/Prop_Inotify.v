(** * Property theorems C36, C37, C38, C41: the inotify watcher *)
From Verif Require Import Base Event Paths PathsFacts Clean SpecClean CleanFacts Inotify SpecInotify InotifyFacts InotifyTab.
Local Open Scope N_scope.

(** ** C36: translation of event sets and of raw masks *)
(** The mask given to the kernel contains exactly the raw bits asked for. *)
Theorem C36_mask_exact e i : has (encode e) i ↔ asks e i.
Proof. apply has_encode. Qed.
(** ... and no inotify flag (one-shot, mask-add, ...), only events. *)
Theorem C36_mask_only_events e : known e → incl_ev (encode e) 0xfff.
Proof. apply encode_known. Qed.
(** The native event is exactly requested-intersect-raw; none if that is empty. *)
Theorem C36_native e sys :
  ∀ x, (decode e sys).2 = Some x ↔ x = e .& sys ∧ x ≠ 0.
Proof.
  intros x. destruct (decode_spec e sys) as [-> _]. destruct (N.eqb_spec (e .& sys) 0) as [H|H]; split.
  - done.
  - intros [-> ?]. done.
  - intros [= <-]. done.
  - intros [-> _]. done.
Qed.
(** A generic event is only produced if requested and one of its raw bits is set. *)
Theorem C36_generic_sound e sys :
  (decode e sys).1 ≠ 0 → ∃ n, ((decode e sys).1, n) ∈ generics ∧ incl_ev (decode e sys).1 e ∧ n .& sys ≠ 0.
Proof.
  destruct (decode_spec e sys) as [_ [[H _]|(j&g&n&Hl&Hd&Hg&Hn&_)]]; [done|]. intros _. rewrite Hd.
  exists n. split_and!; [by eapply elem_of_list_lookup_2|done|done].
Qed.
(** If some requested generic event has a raw bit set, a generic event is produced. *)
Theorem C36_generic_complete e sys g n :
  (g, n) ∈ generics → incl_ev g e → n .& sys ≠ 0 → (decode e sys).1 ≠ 0.
Proof.
  intros Hin Hg Hn. destruct (decode_spec e sys) as [_ [[_ H]|(j&g'&n'&Hl&Hd&_)]].
  - by destruct (H g n Hin Hg).
  - rewrite Hd. unfold generics in Hl. destruct j as [|[|[|[|]]]]; inversion Hl; done.
Qed.
(** For records with one event bit, as the kernel writes them, it is that one. *)
Theorem C36_generic_exact e sys g n k :
  sys .& 0xfff = 2 ^ k → (g, n) ∈ generics →
  (decode e sys).1 = g ↔ incl_ev g e ∧ n .& sys ≠ 0.
Proof.
  intros Hk Hin.
  assert (∀ g n, (g, n) ∈ generics → g ≠ 0 ∧ incl_ev n 0xfff) as Hgen.
  { intros g' n' Hin'. unfold generics in Hin'. repeat (apply elem_of_cons in Hin' as [[= -> ->]|Hin']); [..|by apply elem_of_nil in Hin'];
      (split; [done|]); apply land_eq_incl; by vm_compute. }
  assert (∀ n, incl_ev n 0xfff → n .& sys ≠ 0 → has n k) as Hbit.
  { intros n' Hi [i Hn']%nonzero_bit. apply has_land in Hn' as [H1 H2].
    assert (has (2 ^ k) i) as Hx by (rewrite <-Hk; apply has_land; auto). apply has_pow2 in Hx as ->. done. }
  assert (∀ g n g' n', (g, n) ∈ generics → (g', n') ∈ generics → n .& sys ≠ 0 → n' .& sys ≠ 0 → g = g') as Huniq.
  { intros g1 n1 g2 n2 H1 H2 N1 N2.
    assert (has n1 k) as B1 by (apply Hbit; [by apply (Hgen g1)|done]).
    assert (has n2 k) as B2 by (apply Hbit; [by apply (Hgen g2)|done]).
    destruct (decide (g1 = g2)) as [|Hne]; [done|exfalso].
    assert (n1 .& n2 = 0) as Hz.
    { clear - H1 H2 Hne. unfold generics in H1, H2. repeat (apply elem_of_cons in H1 as [[= -> ->]|H1]); [..|by apply elem_of_nil in H1];
      (repeat (apply elem_of_cons in H2 as [[= -> ->]|H2]); [..|by apply elem_of_nil in H2]); first [done|by vm_compute]. }
    assert (has 0 k) as Hx by (rewrite <-Hz; apply has_land; auto). by apply has_0 in Hx. }
  destruct (decode_spec e sys) as [_ [[Hd H]|(j&g'&n'&Hl&Hd&Hg'&Hn'&_)]]; rewrite Hd; split.
  - intros <-. by destruct (Hgen _ _ Hin).
  - intros [Hg Hn]. by destruct (H g n Hin Hg).
  - intros <-. split; [done|].
    assert (n = n') as ->; [|done]. apply elem_of_list_lookup_2 in Hl.
    clear - Hin Hl. unfold generics in Hin, Hl.
    repeat (apply elem_of_cons in Hin as [[= -> ->]|Hin]); [..|by apply elem_of_nil in Hin];
      (repeat (apply elem_of_cons in Hl as [Hl|Hl]); [..|by apply elem_of_nil in Hl]); by injection Hl.
  - intros [Hg Hn]. symmetry. eapply Huniq; [done|by eapply elem_of_list_lookup_2|done|done].
Qed.
(** Every record the kernel can send for a programmed mask yields some event. *)
Theorem C36_nothing_lost e sys : known e → encode e .& sys ≠ 0 → sys .& All linux = 0 → (decode e sys).1 ≠ 0 ∨ (decode e sys).2 ≠ None.
Proof.
  intros Hk [i Hi]%nonzero_bit _. apply has_land in Hi as [H1 H2]. apply has_encode in H1 as [[H1 _]|(g&n&Hin&Hg&Hn)].
  - right. destruct (decode_spec e sys) as [-> _]. destruct (N.eqb_spec (e .& sys) 0) as [Hz|]; [|done].
    assert (has 0 i) as Hx by (rewrite <-Hz; by apply has_land). by apply has_0 in Hx.
  - left. eapply C36_generic_complete; [done|done|]. apply nonzero_bit. exists i. by apply has_land.
Qed.
(** Nothing is produced that was not requested. *)
Theorem C36_only_requested e sys x :
  (decode e sys).1 = x ∨ (decode e sys).2 = Some x → incl_ev x e.
Proof.
  intros [<-|Hx].
  - destruct (decide ((decode e sys).1 = 0)) as [->|Hn]; [intros i Hi; by apply has_0 in Hi|].
    by destruct (C36_generic_sound e sys Hn) as (n&_&?&_).
  - apply C36_native in Hx as [-> _]. by intros i [? _]%has_land.
Qed.
Example C36_ex :
  encode (ICreate .| InOpen) = 0x1a0 ∧ decode (ICreate .| InCreate) (InCreate .| IN_ISDIR) = (ICreate, Some InCreate) ∧
  decode ICreate InMovedTo = (ICreate, None) ∧ decode InOpen InOpen = (0, Some InOpen) ∧ decode (All linux) InMovedFrom = (IRename, None) ∧
  (InMovedFrom .| IN_ISDIR) .& 0xfff = 2 ^ 6.
Proof. by vm_compute. Qed.

(** ** C37: the read buffer *)
(** Whatever records the kernel wrote, and whatever older bytes follow them in the
    buffer, exactly those records come out, names without padding. *)
Theorem C37_round_trip rs old :
  Forall raw_ok rs →
  i_read (flat_map (λ x, record_bytes x.1 x.2) rs ++ old)
    (Some (length (flat_map (λ x, record_bytes x.1 x.2) rs))) = Some (rs.*1).
Proof. apply read_records. Qed.
(** Errors and short reads yield nothing. *)
Theorem C37_short buf r : (∀ n, r = Some n → (n < 16)%nat) → i_read buf r = Some [].
Proof.
  intros H. unfold i_read. destruct r as [n|]; [|done]. specialize (H n eq_refl).
  destruct (Nat.ltb_spec n hdrsz) as [|Hx]; [done|unfold hdrsz in Hx; lia].
Qed.
(** The loop runs at most n+1 times, for any bytes at all. *)
Theorem C37_terminates buf n fuel : (S n ≤ fuel)%nat → parse buf n fuel 0 = parse buf n (S n) 0.
Proof. intros H. apply parse_fuel; lia. Qed.
Example C37_ex :
  let rs := [(Raw 1 0x100 0 (b "file"), 12%nat); (Raw (-1) 0x4000 0 [], 0%nat); (Raw 70000 0x40000040 123456789 (b "a"), 15%nat)] in
  Forall raw_ok rs ∧ i_read (flat_map (λ x, record_bytes x.1 x.2) rs ++ b "junkjunkjunkjunkjunk") (Some 80%nat) = Some (rs.*1) ∧
  length (flat_map (λ x, record_bytes x.1 x.2) rs) = 80%nat.
Proof.
  cbn zeta. split_and!; [|by vm_compute|by vm_compute].
  repeat constructor; cbn; try (by vm_compute); try lia; try (unfold u32; lia); apply (bool_decide_unpack _); by vm_compute.
Qed.

(** ** C38: the descriptor table *)
(** In orderly histories (files may disappear and paths be watched anew once their
    watch was withdrawn, but a path does not change its file while watched, and no
    file is watched under two names): the kernel watches exactly the existing files of
    the paths watched according to the calls' results, each with exactly the raw bits
    asked for. *)
Theorem C38_kernel_table tr s p e i :
  iexec tr s → orderly tr →
  itab tr !! p = Some e ∧ ifile tr !! p = Some (i, true) ↔
    ∃ wd, i_m s !! wd = Some (Wd p e) ∧ i_k s !! wd = Some (KW i (encode e)).
Proof.
  intros Hx Hst. pose proof (iexec_orderly tr s Hx Hst) as Hs. rewrite (ov_tab _ _ Hs). split.
  - intros [[wd Hw] Hf]. exists wd. split; [done|]. destruct (ov_file _ _ Hs _ _ _ Hw) as (i'&l&Hf'&Hk).
    rewrite Hf in Hf'. by injection Hf' as <- <-.
  - intros (wd&Hw&Hk). split; [eauto|]. destruct (ov_file _ _ Hs _ _ _ Hw) as (i'&l&Hf'&Hk').
    rewrite Hk in Hk'. destruct l; [|done]. by injection Hk' as <-.
Qed.
Theorem C38_kernel_only tr s wd i m :
  iexec tr s → orderly tr → i_k s !! wd = Some (KW i m) →
  ∃ p e, itab tr !! p = Some e ∧ ifile tr !! p = Some (i, true) ∧ m = encode e.
Proof.
  intros Hx Hst Hk. pose proof (iexec_inv tr s Hx) as Hi.
  destruct (iv_k _ _ Hi _ _ _ Hk) as (p&e&Hm&->). exists p, e.
  destruct (C38_kernel_table tr s p e i Hx Hst) as [_ Hb]. destruct Hb as [H1 H2]; [by eauto|done].
Qed.
(** Whatever the kernel puts in its queue, only events of watched paths and
    requested bits are reported, under the watched path joined with the name. *)
Theorem C38_sound tr s rs e :
  iexec tr s → orderly tr → e ∈ sent (i_m s) rs →
  ∃ r p m, r ∈ rs ∧ itab tr !! p = Some m ∧ incl_ev (ie_event e) m ∧ ie_event e ≠ 0 ∧
    ie_path e = match r_name r with [] => p | nm => fjoin p nm end.
Proof.
  intros Hx Hst He. pose proof (iexec_orderly tr s Hx Hst) as Hs.
  apply elem_of_sent in He as (r&Hr&He). destruct (transform1_cases (i_m s) r) as [Ht|(w&H1&H2&H3)].
  { rewrite Ht in He. by destruct He. }
  pose proof (transform1_Some (i_m s) r w H1 H2 H3) as Ht. cbn zeta in Ht. rewrite Ht in He. clear Ht. cbn [fst snd] in He.
  destruct w as [p m]. cbn [w_path w_mask] in *. exists r, p, m. split; [done|]. split; [apply (ov_tab _ _ Hs); eauto|].
  destruct He as [He|He].
  - destruct (N.eqb_spec (decode m (r_mask r)).1 0) as [|Hn]; [done|]. injection He as <-. cbn.
    split_and!; [eapply C36_only_requested; by left|done|done].
  - apply fmap_Some in He as (x&Hx'&->). cbn. split_and!; [eapply C36_only_requested; by right| |done].
    by apply C36_native in Hx' as [_ ?].
Qed.
(** Overflow and ignored records, and records of unknown descriptors, yield nothing. *)
Theorem C38_dropped m r :
  r_mask r .& (IN_IGNORED .| IN_Q_OVERFLOW) ≠ 0 ∨ m !! r_wd r = None → sent m [r] = [].
Proof.
  intros H. assert (transform1 m r = (None, None)) as Ht.
  { destruct (transform1_cases m r) as [|(w&H1&H2&_)]; [done|]. destruct H; congruence. }
  unfold sent, transform. cbn. by rewrite Ht.
Qed.
(** Anything that happens to a watched file and is asked for is reported: the
    requested generic event, and the raw event if asked for natively. *)
Theorem C38_complete tr s rs p m f ev isdir cookie name r i :
  iexec tr s → orderly tr → itab tr !! p = Some m → ifile tr !! p = Some (f, true) → ev = 2 ^ i → i < 12 → asks m i →
  kernel_reports s f ev isdir cookie name r → r ∈ rs →
  let path := match name with [] => p | nm => fjoin p nm end in
  (∀ g n, (g, n) ∈ generics → incl_ev g m → has n i →
    ∃ e, e ∈ sent (i_m s) rs ∧ ie_info e = EI g path (Some isdir) fTypeUnknown) ∧
  (has m i → ∃ e, e ∈ sent (i_m s) rs ∧ ie_info e = EI ev path (Some isdir) fTypeUnknown).
Proof.
  intros Hx Hst Hp Hf -> Hi Ha (wd&m'&Hk&_&->) Hin. cbn zeta.
  pose proof (iexec_inv tr s Hx) as Hiv. destruct (proj1 (C38_kernel_table tr s p m f Hx Hst) (conj Hp Hf)) as (wd0&Hm0&Hk0).
  assert (wd0 = wd) as -> by (by eapply (iv_ino _ _ Hiv)).
  assert (m' = encode m) as -> by congruence.
  destruct (iv_m _ _ Hiv _ _ _ Hm0) as [Hkn _].
  set (sys := 2 ^ i .| (if isdir then 0x40000000 else 0)) in *.
  set (r := Raw wd sys cookie name) in *.
  assert (∀ j, has sys j ↔ j = i ∨ (isdir = true ∧ j = 30)) as Hsys.
  { intros j. unfold sys. rewrite has_lor, has_pow2. destruct isdir.
    - change 0x40000000 with (2 ^ 30). rewrite has_pow2. naive_solver.
    - split; [intros [->|Hj]; [auto|by apply has_0 in Hj]|intros [->|[? _]]; [auto|done]]. }
  assert (i ≠ 30) as Hi30 by (intros ->; lia).
  assert (r_mask r .& (IN_IGNORED .| IN_Q_OVERFLOW) = 0) as H1.
  { apply zero_bits. intros j. destruct (N.testbit _ j) eqn:E; [|done]. exfalso. apply has_land in E as [E1 E2].
    change (r_mask r) with sys in E1. apply Hsys in E1. change IN_IGNORED with (2 ^ 15) in E2. change IN_Q_OVERFLOW with (2 ^ 14) in E2.
    rewrite has_lor, !has_pow2 in E2. destruct E1 as [->|[_ ->]]; [lia|destruct E2; done]. }
  assert (r_mask r .& encode (w_mask (Wd p m)) ≠ 0) as H3.
  { apply nonzero_bit. exists i. apply has_land. split; [apply Hsys; auto|]. by apply has_encode. }
  pose proof (transform1_Some (i_m s) r (Wd p m) H1 Hm0 H3) as Ht. cbn zeta in Ht. cbn [w_path w_mask] in Ht.
  assert (negb (sys .& IN_ISDIR =? 0) = isdir) as Hdir.
  { change IN_ISDIR with (2 ^ 30). rewrite land_pow2, negb_involutive. destruct (N.testbit sys 30) eqn:E.
    - apply Hsys in E as [E|[? _]]; [by destruct Hi30|done].
    - destruct isdir; [|done]. assert (has sys 30) as Hx' by (apply Hsys; auto). unfold has in Hx'. congruence. }
  assert (sys .& 0xfff = 2 ^ i) as Hone.
  { apply N.bits_inj. intros j. apply eq_iff_eq_true. change (has (sys .& 0xfff) j ↔ has (2 ^ i) j).
    rewrite has_land, Hsys, has_pow2. change 0xfff with (N.ones 12). unfold has. rewrite N.ones_spec_iff.
    split; [intros [[->|[_ ->]] Hj]; [done|lia]|intros ->; auto]. }
  split.
  - intros g n Hg Hgm Hn. assert ((decode m sys).1 = g) as Hd.
    { apply (C36_generic_exact m sys g n i Hone Hg). split; [done|]. apply nonzero_bit. exists i. apply has_land. rewrite Hsys. auto. }
    eexists. split.
    + apply elem_of_sent. exists r. split; [done|]. left. rewrite Ht. cbn [fst]. change (r_mask r) with sys. rewrite Hd.
      assert (g =? 0 = false) as ->; [|done]. apply N.eqb_neq. rewrite <-Hd. eapply C36_generic_complete; [done|done|].
      apply nonzero_bit. exists i. apply has_land. rewrite Hsys. auto.
    + unfold ie_info, r. cbn [ie_event ie_path ie_mask r_mask r_name r_wd r_cookie]. rewrite Hdir. by destruct name.
  - intros Hmi. assert ((decode m sys).2 = Some (2 ^ i)) as Hd.
    { apply C36_native. split; [|apply nonzero_bit; exists i; by apply has_pow2].
      apply N.bits_inj. intros j. apply eq_iff_eq_true. change (has (2 ^ i) j ↔ has (m .& sys) j).
      rewrite has_land, Hsys, has_pow2. split; [intros ->; auto|]. intros [Hj [->|[_ ->]]]; [done|].
      apply (known_bits _ _ Hkn) in Hj. lia. }
    eexists. split.
    + apply elem_of_sent. exists r. split; [done|]. right. rewrite Ht. cbn [snd]. change (r_mask r) with sys. rewrite Hd. done.
    + unfold ie_info, r. cbn [ie_event ie_path ie_mask r_mask r_name r_wd r_cookie]. rewrite Hdir. by destruct name.
Qed.
(** And the kernel does report it. *)
Theorem C38_kernel_active tr s p m f i isdir cookie name :
  iexec tr s → orderly tr → itab tr !! p = Some m → ifile tr !! p = Some (f, true) → asks m i →
  ∃ r, kernel_reports s f (2 ^ i) isdir cookie name r.
Proof.
  intros Hx Hst Hp Hf Ha. pose proof (iexec_inv tr s Hx) as Hiv.
  destruct (proj1 (C38_kernel_table tr s p m f Hx Hst) (conj Hp Hf)) as (wd0&Hm0&Hk0).
  destruct (iv_m _ _ Hiv _ _ _ Hm0) as [Hkn _]. eexists _, wd0, _. split_and!; [exact Hk0| |reflexivity].
  apply nonzero_bit. exists i. apply has_land. split; [by apply has_pow2|]. by apply has_encode.
Qed.
(** In every history, orderly or not, nothing is reported for a path that was never
    passed to a successful Watch, nor any event not asked for in one such call. *)
Theorem C38_only_watched tr s rs e :
  iexec tr s → e ∈ sent (i_m s) rs →
  ∃ r p m E, r ∈ rs ∧ (E, IWatch p m, true) ∈ tr ∧ incl_ev (ie_event e) m ∧
    ie_path e = match r_name r with [] => p | nm => fjoin p nm end.
Proof.
  intros Hx He. pose proof (iexec_inv tr s Hx) as Hi.
  apply elem_of_sent in He as (r&Hr&He). destruct (transform1_cases (i_m s) r) as [Ht|(w&H1&H2&H3)].
  { rewrite Ht in He. by destruct He. }
  pose proof (transform1_Some (i_m s) r w H1 H2 H3) as Ht. cbn zeta in Ht. rewrite Ht in He. clear Ht. cbn [fst snd] in He.
  destruct w as [p m]. cbn [w_path w_mask] in *.
  destruct (iv_m _ _ Hi _ _ _ H2) as (_&E&tr1&tr2&->).
  exists r, p, m, E. split; [done|]. split; [apply elem_of_app; right; by left|].
  destruct He as [He|He].
  - destruct (N.eqb_spec (decode m (r_mask r)).1 0) as [|Hn]; [done|]. injection He as <-. cbn.
    split; [eapply C36_only_requested; by left|done].
  - apply fmap_Some in He as (x&Hx'&->). cbn. split; [eapply C36_only_requested; by right|done].
Qed.
(** The reported path is a clean absolute path one level below. *)
Theorem C38_joined_path tp c : Forall proper tp → proper c → fjoin (topath tp) c = topath (tp ++ [c]).
Proof. apply fjoin_topath. Qed.

Global Instance watched_eq_dec : EqDecision watched.
Proof. solve_decision. Defined.
(** *** A concrete history: /a is watched for Create and for InOpen, /b for Write, then
    /a for Create only; /b is removed, unwatched, created again (another file),
    watched again, removed again and unwatched. *)
Definition env_at (i : positive) : ienv := IEnv true (Some i) id.
Definition hist : itrace := [
  (env_at 5, IWatch (b "/a") (ICreate .| InOpen), true); (env_at 6, IWatch (b "/b") IWrite, true);
  (env_at 7, IWatch (b "/c") (recursive linux), false);
  (env_at 5, IWatch (b "/a") (ICreate .| InCreate), true); (env_at 6, IGone 6, true); (env_at 6, IUnwatch (b "/b"), true);
  (env_at 8, IWatch (b "/b") IWrite, true); (env_at 8, IGone 8, true); (env_at 6, IUnwatch (b "/b"), true)].
Definition runi (s : ist) (tr : itrace) : ist := foldl (λ s x, (istep x.1.1 s x.1.2).1) s tr.
Definition outs (s : ist) (tr : itrace) : list bool :=
  (foldl (λ a x, ((istep x.1.1 a.1 x.1.2).1, a.2 ++ [(istep x.1.1 a.1 x.1.2).2])) (s, []) tr).2.
Lemma iexec_run tr : Forall (λ x, ienv_ok x.1.1) tr → (∀ k x, tr !! k = Some x → (istep x.1.1 (runi inew (take k tr)) x.1.2).2 = x.2) →
  iexec tr (runi inew tr).
Proof.
  induction tr as [|x tr IH] using rev_ind; intros He Hr; [constructor|].
  apply Forall_app in He as [He Hx]. apply Forall_cons_1, proj1 in Hx. destruct x as [[E o] r]. cbn in Hx.
  assert (iexec tr (runi inew tr)) as Hi.
  { apply IH; [done|]. intros k x Hk. rewrite <-(Hr k x); [|by apply lookup_app_l_Some].
    rewrite take_app_le; [done|]. apply Nat.lt_le_incl. by eapply lookup_lt_Some. }
  specialize (Hr (length tr) (E, o, r)). rewrite lookup_app_r in Hr by lia. rewrite Nat.sub_diag in Hr.
  specialize (Hr eq_refl). rewrite take_app in Hr. cbn [fst snd] in Hr.
  unfold runi. rewrite foldl_app. cbn [foldl fst snd]. fold (runi inew tr).
  destruct (istep E (runi inew tr) o) as [s' r'] eqn:Es. cbn in Hr. subst r'. econstructor; [exact Hi|exact Hx|exact Es].
Qed.
Lemma hist_exec : iexec hist (runi inew hist).
Proof.
  apply iexec_run; [repeat constructor; by intros l|].
  intros k x Hk. do 9 (destruct k as [|k]; [injection Hk as <-; by vm_compute|]). done.
Qed.
Definition orderly1 (t : gmap str (positive * bool)) (x : ienv * iop * bool) : bool :=
  match x with
  | (E, IWatch p _, true) =>
      match ie_ino E with
      | Some i => match t !! p with Some y => bool_decide (y = (i, true)) | None => true end &&
                  forallb (λ y, bool_decide (y.1 = p) || negb (bool_decide (y.2 = (i, true)))) (map_to_list t)
      | None => true
      end
  | _ => true
  end.
Lemma orderly_check tr : (∀ k x, tr !! k = Some x → orderly1 (ifile (take k tr)) x = true) → orderly tr.
Proof.
  intros H tr1 E p e i tr2 -> Hi. specialize (H (length tr1) (E, IWatch p e, true)).
  rewrite lookup_app_r, Nat.sub_diag in H by lia. specialize (H eq_refl). rewrite take_app in H.
  unfold orderly1 in H. rewrite Hi in H. apply andb_prop in H as [H1 H2]. split.
  - intros x Hx. rewrite Hx in H1. by apply bool_decide_eq_true in H1.
  - intros q Hq Hf. rewrite forallb_forall in H2. specialize (H2 (q, (i, true))). cbn [fst snd] in H2.
    rewrite (bool_decide_eq_false_2 (q = p)), (bool_decide_eq_true_2 ((i, true) = (i, true))) in H2 by done.
    apply elem_of_map_to_list, elem_of_list_In in Hf. by apply H2 in Hf.
Qed.
Lemma hist_orderly : orderly hist.
Proof.
  apply orderly_check. intros k x Hk. do 9 (destruct k as [|k]; [injection Hk as <-; by vm_compute|]). done.
Qed.
Example C38_ex :
  iexec hist (runi inew hist) ∧ orderly hist ∧ itab hist = {[ b "/a" := ICreate .| InCreate ]} ∧
  ifile hist = {[ b "/a" := (5%positive, true) ]} ∧
  kernel_reports (runi inew hist) 5 InCreate true 0 (b "d") (Raw 1 (InCreate .| IN_ISDIR) 0 (b "d")) ∧
  (ie_info <$> sent (i_m (runi inew hist)) [Raw 1 (InCreate .| IN_ISDIR) 0 (b "d"); Raw 2 InModify 0 []; Raw 1 IN_IGNORED 0 []]) =
    [EI ICreate (b "/a/d") (Some true) fTypeUnknown; EI InCreate (b "/a/d") (Some true) fTypeUnknown].
Proof.
  split_and!; [apply hist_exec|apply hist_orderly|apply (bool_decide_unpack _); by vm_compute|apply (bool_decide_unpack _); by vm_compute| |by vm_compute].
  exists 1%Z, 0x180. split_and!; [by vm_compute|by vm_compute|done].
Qed.

(** ** C38 refuted in general *)
(** Two names of one file (hard links) share a descriptor: after watching /f and then
    /g, a change of the file is reported for /g only, although both calls returned
    nil and neither path was unwatched. *)
Definition hist_link : itrace := [
  (IEnv true (Some 7%positive) id, IWatch (b "/f") IWrite, true); (IEnv true (Some 7%positive) id, IWatch (b "/g") IWrite, true)].
Theorem C38_hard_link_refuted :
  iexec hist_link (runi inew hist_link) ∧ itab hist_link !! b "/f" = Some IWrite ∧
  ∀ ev isdir cookie r e, kernel_reports (runi inew hist_link) 7 ev isdir cookie [] r →
    e ∈ sent (i_m (runi inew hist_link)) [r] → ie_path e = b "/g".
Proof.
  split_and!.
  - apply iexec_run; [repeat constructor; by intros l|].
    intros k x Hk. do 2 (destruct k as [|k]; [injection Hk as <-; by vm_compute|]). done.
  - by vm_compute.
  - intros ev isdir cookie r e (wd&m&_&_&->) He. apply elem_of_sent in He as (r&Hr&He). apply elem_of_list_singleton in Hr as Hr.
    destruct (transform1_cases (i_m (runi inew hist_link)) r) as [Ht|(w&H1&H2&H3)]; [rewrite Ht in He; by destruct He|].
    pose proof (transform1_Some _ r w H1 H2 H3) as Ht. cbn zeta in Ht. rewrite Ht in He. rewrite Hr in He. cbn [r_name] in He.
    assert (w = Wd (b "/g") IWrite) as ->.
    { assert (i_m (runi inew hist_link) = {[ 1%Z := Wd (b "/g") IWrite ]}) as Hm by (apply (bool_decide_unpack _); by vm_compute).
      rewrite Hm in H2. by apply lookup_singleton_Some in H2 as [_ <-]. }
    cbn [fst snd w_path] in He. destruct He as [He|He].
    + destruct (_ =? 0); [done|]. injection He as <-. done.
    + apply fmap_Some in He as (x&_&->). done.
Qed.
(** A watched directory is deleted and created again, watched again, and unwatched:
    Unwatch may find the stale descriptor first, and then the new directory stays
    watched although every call returned nil. *)
Definition hist_stale : itrace := [
  (IEnv true (Some 7%positive) id, IWatch (b "/d") IWrite, true); (IEnv true None id, IGone 7, true);
  (IEnv true (Some 8%positive) id, IWatch (b "/d") IWrite, true);
  (IEnv true None (λ l, if decide (map_to_list ({[1%Z := Wd (b "/d") IWrite; 2%Z := Wd (b "/d") IWrite]} : gmap Z watched) = l)
                        then [(1%Z, Wd (b "/d") IWrite); (2%Z, Wd (b "/d") IWrite)] else l), IUnwatch (b "/d"), true)].
Theorem C38_stale_descriptor_refuted :
  iexec hist_stale (runi inew hist_stale) ∧ itab hist_stale !! b "/d" = None ∧
  kernel_reports (runi inew hist_stale) 8 InModify false 0 (b "f") (Raw 2 InModify 0 (b "f")) ∧
  (ie_info <$> sent (i_m (runi inew hist_stale)) [Raw 2 InModify 0 (b "f")]) = [EI IWrite (b "/d/f") (Some false) fTypeUnknown].
Proof.
  split_and!.
  - apply iexec_run.
    + repeat constructor; try (by intros l). intros l. cbn. case_decide as Hl; [|done]. rewrite <-Hl.
      apply (bool_decide_unpack _). by vm_compute.
    + intros k x Hk. do 4 (destruct k as [|k]; [injection Hk as <-; by vm_compute|]). done.
  - by vm_compute.
  - exists 2%Z, InModify. split_and!; by vm_compute.
  - by vm_compute.
Qed.

(** ** C41: unknown events are rejected *)
(** Watch and Rewatch with any bit outside the documented ones return an error and
    touch neither the kernel nor the watcher. *)
Theorem C41_unknown_rejected ok ino s p e :
  ¬ known e → i_watch ok ino s p e = (s, false).
Proof.
  intros Hk. unfold i_watch. destruct (negb (e .&^ _ =? 0)) eqn:E; [done|]. by apply known_check in E.
Qed.
(** Nothing else is rejected by the library itself. *)
Theorem C41_known_accepted s p e ino : known e → (i_watch true (Some ino) s p e).2 = true.
Proof.
  intros Hk. unfold i_watch. apply known_check in Hk as ->. unfold lazyinit.
  destruct (i_open s); unfold kadd; by destruct (kfind _ _).
Qed.
Example C41_ex : ¬ known (ICreate .| 0x1000) ∧ ¬ known (recursive linux) ∧ known (ICreate .| InAttrib).
Proof.
  split_and!.
  - intros H. specialize (H 12 eq_refl). by vm_compute in H.
  - intros H. specialize (H 24 eq_refl). by vm_compute in H.
  - apply land_eq_incl. by vm_compute.
Qed.

Print Assumptions C36_mask_exact.
Print Assumptions C36_native.
Print Assumptions C36_generic_sound.
Print Assumptions C36_generic_complete.
Print Assumptions C36_generic_exact.
Print Assumptions C36_nothing_lost.
Print Assumptions C36_only_requested.
Print Assumptions C37_round_trip.
Print Assumptions C37_short.
Print Assumptions C37_terminates.
Print Assumptions C38_kernel_table.
Print Assumptions C38_kernel_only.
Print Assumptions C38_sound.
Print Assumptions C38_dropped.
Print Assumptions C38_complete.
Print Assumptions C38_kernel_active.
Print Assumptions C38_only_watched.
Print Assumptions C38_hard_link_refuted.
Print Assumptions C38_stale_descriptor_refuted.
Print Assumptions C41_unknown_rejected.
