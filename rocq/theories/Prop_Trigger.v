(** * The kqueue and FEN watchers: C49, C50, C51, C52 *)
From Verif Require Import Base Event Paths Clean SpecClean CleanFacts Trigger SpecTrigger TriggerFacts TriggerTab TriggerRun TriggerRoles TriggerScan TriggerClose TriggerEx.
Local Open Scope N_scope.

(** ** C49: translation of events *)
(** The native events asked for are exactly those the requested set stands for. *)
Theorem C49_kqueue_requested e dir i : has (kq_encode e dir) i ↔ native_bit kq dir e i.
Proof. apply kq_encode_spec. Qed.
Theorem C49_fen_requested e dir i : u32 e → has (fen_encode e dir) i ↔ native_bit fn dir e i.
Proof. apply fen_encode_spec. Qed.
(** A native report [o] is decoded to exactly the requested events it is about, *)
Theorem C49_decoded T o w i : known_trig T →
  has (decode (t_nat2not T) o w) i ↔ ∃ x, reported T o x ∧ w .& x ≠ 0 ∧ has x i.
Proof. apply decode_spec. Qed.
(** so to nothing that was not requested, *)
Theorem C49_only_requested T o w : known_trig T → incl_ev (decode (t_nat2not T) o w) w.
Proof. apply decode_incl. Qed.
(** in whatever order Go ranges over the map. *)
Theorem C49_order m T o w : m ≡ₚ t_nat2not T → decode m o w = decode (t_nat2not T) o w.
Proof. apply decode_perm. Qed.
(** Requesting and decoding fit: for each generic event but Create that is requested, the
    OS is asked for its native counterpart (unless it reports it unasked), and when it
    reports that, the generic event comes out. *)
Theorem C49_round_trip T w dir r f : known_trig T → u32 w → (r, f) ∈ counterpart T → w .& r ≠ 0 →
  (incl_ev f (t_encode T w dir) ∨ incl_ev f (exceptions T)) ∧ ∀ o, o .& f ≠ 0 → incl_ev r (decode (t_nat2not T) o w).
Proof.
  intros HT Hu Hrf Hw. split.
  - assert (incl_ev f (exceptions T) ∨ disj_ev f (exceptions T)) as [Hx|Hx].
    { destruct HT as [-> | ->]; unfold counterpart in Hrf; cbn [t_plat t_write t_rename t_remove kq fn] in Hrf; rewrite !elem_of_cons, elem_of_nil in Hrf;
      (repeat destruct Hrf as [Hrf|Hrf]; try done); apply pair_equal_spec in Hrf as [-> ->];
      first [left; apply land_eq_incl; by vm_compute|right; apply land_zero_disj; by vm_compute]. }
    + by right.
    + left. intros i Hi. assert (native_bit T dir w i) as K.
      { split; [intros Hxi; by apply (Hx i)|]. right. exists r, f. split; [|done]. unfold implied. apply elem_of_app. by left. }
      destruct HT as [-> | ->]; [by apply kq_encode_spec|by apply fen_encode_spec].
  - intros o Ho i Hi. apply decode_spec; [done|]. exists r. split; [|done]. right. by exists f.
Qed.
(** Create asks for writes to the directory, and is never decoded: it comes from rescans. *)
Theorem C49_create T w : known_trig T → u32 w → w .& Create (t_plat T) ≠ 0 →
  incl_ev (t_write T) (t_encode T w true) ∧ ∀ o, decode (t_nat2not T) o w .& Create (t_plat T) = 0.
Proof.
  intros HT Hu Hw. split.
  - intros i Hi. assert (native_bit T true w i) as K.
    { split.
      - intros Hxi. assert (disj_ev (t_write T) (exceptions T)) as Hd by (destruct HT as [-> | ->]; apply land_zero_disj; by vm_compute). by apply (Hd i).
      - right. exists (Create (t_plat T)), (t_write T). split; [|done]. unfold implied. apply elem_of_app. right. by left. }
    destruct HT as [-> | ->]; [by apply kq_encode_spec|by apply fen_encode_spec].
  - intros o. apply has_ext. intros i. rewrite has_land. split; [|intros H; unfold has in H; by rewrite N.bits_0 in H]. intros [H1 H2]. exfalso.
    apply decode_spec in H1 as (x&Hx&_&Hi); [|done].
    assert (x ∈ natives T ++ (counterpart T).*1) as Hin.
    { apply elem_of_app. destruct Hx as [[? _]|(f&Hf&_)]; [by left|right]. apply elem_of_list_fmap. by exists (x, f). }
    assert (Forall (λ y, disj_ev y (Create (t_plat T))) (natives T ++ (counterpart T).*1)) as HF.
    { destruct HT as [-> | ->]; (apply Forall_forall; intros y Hy; apply land_zero_disj; revert y Hy; apply Forall_forall; repeat constructor). }
    rewrite Forall_forall in HF. by apply (HF x Hin i).
Qed.
Example C49_hyps : known_trig kq ∧ u32 (Create kqueue .| Write kqueue .| NoteAttrib) ∧ (Write kqueue, NoteWrite) ∈ counterpart kq ∧
  kq_encode (Create kqueue .| Remove kqueue .| NoteAttrib) true = NoteWrite .| NoteDelete .| NoteAttrib ∧
  decode kq_nat2not (NoteWrite .| NoteDelete .| NoteAttrib) (Remove kqueue .| NoteAttrib .| Rename kqueue) = Remove kqueue .| NoteAttrib.
Proof. split_and!; [by left|by vm_compute|left|by vm_compute|by vm_compute]. Qed.

(** ** C50: the tables *)
(** In every history, whatever the OS answers: the structure found by a path carries that
    path; on kqueue it is found by its descriptor too, which is open; and whatever is found
    by a descriptor is found by its path.  *)
Theorem C50_tables_agree T tr s : texec T tr s →
  (∀ p w, tw_at s p = Some w → tw_p w = p ∧ (t_fds T = true → ts_id s !! tw_fd w = ts_path s !! p ∧ tw_fd w ∈ ts_open s)) ∧
  (∀ fd i, ts_id s !! fd = Some i → ∃ w, ts_heap s !! i = Some w ∧ tw_fd w = fd ∧ ts_path s !! tw_p w = Some i) ∧
  (∀ p, is_Some (ts_path s !! p) ↔ is_Some (tw_at s p)).
Proof.
  intros H. apply texec_inv in H as Hi. split_and!.
  - intros p w (i&Hp&Hw)%tw_at_Some. destruct (ti_path _ _ Hi p i Hp) as (x&Hx&Hxp&Hf). rewrite Hw in Hx. injection Hx as <-.
    split; [done|]. intros HT. rewrite Hp. by apply Hf.
  - intros fd i Hfd. by apply (ti_id _ _ Hi) in Hfd as [_ ?].
  - intros p. split; [|intros [w (i&?&?)%tw_at_Some]; eauto]. intros [i Hp]. destruct (ti_path _ _ Hi p i Hp) as (x&Hx&_). rewrite (tw_at_eq s p i x Hp Hx). eauto.
Qed.
(** Two paths never share a descriptor. *)
Theorem C50_descriptors tr s p q w x : texec kq tr s → tw_at s p = Some w → tw_at s q = Some x → tw_fd w = tw_fd x → p = q.
Proof.
  intros H (i&Hp&Hw)%tw_at_Some (j&Hq&Hx)%tw_at_Some Hf. apply texec_inv in H as Hi. destruct (decide (p = q)) as [|Hne]; [done|].
  destruct (ident_inj kq s p q i j w x Hi Hp Hw Hq Hx Hne) as [_ []]. unfold ident_of. cbn. by rewrite Hf.
Qed.
(** In orderly histories a path is in the table if, and in strictly orderly ones only if, it is
    watched directly or as a member of a directory, for the events of these two roles, and the
    OS watches it for them. *)
Theorem C50_orderly_partial T ty strict r s p : orderly T ty strict r s →
  (direct r p ≠ 0 ∨ member r p ≠ 0 → is_Some (tw_at s p)) ∧
  (strict = true → is_Some (tw_at s p) → direct r p ≠ 0 ∨ member r p ≠ 0) ∧
  ∀ w, tw_at s p = Some w → tw_eDir w = direct r p ∧ tw_eNonDir w = member r p ∧
    reg_at T s p = Some (t_encode T (direct r p .| member r p) (ty p)).
Proof.
  intros [_ Ha]%orderly_agrees. specialize (Ha p). unfold agree_at in Ha. destruct (tw_at s p) as [w|].
  - destruct Ha as (H1&H2&H3&H4&H5). split; [eauto|]. split.
    + intros Hst _. specialize (H3 Hst). unfold tw_e in H3. rewrite H1, H2 in H3. destruct (decide (direct r p = 0)) as [E|]; [|by left]. right. intros E'. apply H3. by rewrite E, E'.
    + intros x [= <-]. split_and!; [done|done|]. rewrite H5. unfold tw_e. by rewrite H1, H2.
  - destruct Ha as [-> ->]. split; [by intros [?|?]|]. split; [by intros _ [? ?]|done].
Qed.
(** Unwatching a path leaves what it is watched for as a member; unwatching its directory
    leaves what it is watched for directly. *)
Theorem C50_other_role_partial T ty strict r s A p ls res s' : orderly T ty strict r s → willing A → listing ty A p ls →
  tstep T s (TUnwatch (Some (ty p)) A p res) s' →
  (member r p ≠ 0 → p ∉ entries p ls → ∃ w, tw_at s' p = Some w ∧ tw_eDir w = 0 ∧ tw_eNonDir w = member r p ∧ reg_at T s' p = Some (t_encode T (member r p) (ty p))) ∧
  (∀ q, q ∈ entries p ls → q ≠ p → direct r q ≠ 0 →
     ∃ w, tw_at s' q = Some w ∧ tw_eDir w = direct r q ∧ tw_eNonDir w = 0 ∧ reg_at T s' q = Some (t_encode T (direct r q) (ty q))) ∧
  (strict = true → ∀ q, q ∈ entries p ls → q ≠ p → direct r q = 0 → tw_at s' q = None) ∧
  (strict = true → member r p = 0 → tw_at s' p = None).
Proof.
  intros Ho HA Hls Hs. pose proof (ord_unwatch T ty strict r s A p ls res s' Ho HA Hls Hs) as Ho'.
  assert (∀ q f g, direct (role_unwatch r p ls) q = f → member (role_unwatch r p ls) q = g → f ≠ 0 ∨ g ≠ 0 →
    ∃ w, tw_at s' q = Some w ∧ tw_eDir w = f ∧ tw_eNonDir w = g ∧ reg_at T s' q = Some (t_encode T (f .| g) (ty q))) as K.
  { intros q f g <- <- Hn. destruct (C50_orderly_partial T ty _ _ s' q Ho') as (K1&_&K2). apply K1 in Hn as [w Hw]. exists w. split; [done|]. by apply K2. }
  assert (strict = true → ∀ q, direct (role_unwatch r p ls) q = 0 → member (role_unwatch r p ls) q = 0 → tw_at s' q = None) as K'.
  { intros Hst q H1 H2. destruct (C50_orderly_partial T ty _ _ s' q Ho') as (_&K1&_). destruct (tw_at s' q); [|done]. destruct (K1 Hst); [eauto|done..]. }
  cbn [role_unwatch direct member] in K, K'. unfold clr in K, K'. split_and!.
  - intros Hm Hn. destruct (K p 0 (member r p)) as (w&Hw&H1&H2&H3); [by rewrite decide_True by left|by rewrite decide_False|by right|].
    exists w. by rewrite N.lor_0_l in H3.
  - intros q Hq Hne Hd. destruct (K q (direct r q) 0) as (w&Hw&H1&H2&H3); [rewrite decide_False; [done|by intros ?%elem_of_list_singleton]|by rewrite decide_True|by left|].
    exists w. by rewrite N.lor_0_r in H3.
  - intros Hst q Hq Hne Hd. apply (K' Hst); [rewrite decide_False; [done|by intros ?%elem_of_list_singleton]|by rewrite decide_True].
  - intros Hst Hm. apply (K' Hst); [by rewrite decide_True by left|]. by case_decide.
Qed.

Ltac fresh_fds := repeat (apply Forall_cons_2; [first [exact next_fd_fresh|split; exact next_fd_fresh]|]); by apply Forall_nil_2.
(** An orderly history on kqueue: /d with the file x is watched, then x itself, then a write
    to /d shows a new file y, x is unwatched. *)
Definition pd : str := b "/d". Definition px : str := b "/d/x". Definition py : str := b "/d/y".
Definition only (p : str) (ls : list finfo) : str → option (list finfo) := λ q, if decide (q = p) then Some ls else None.
Definition fx : finfo := FI (b "x") false. Definition fy : finfo := FI (b "y") false.
Definition isd (p : str) : bool := bool_decide (p = pd).
Definition ex_cmds : list cmd :=
  [XWatch (Some true) (kind (only pd [fx])) pd (Create kqueue .| Remove kqueue); XWatch (Some false) (kind (only pd [])) px (Write kqueue);
   XEventAt (Some true) (kind (only pd [fx; fy])) pd NoteWrite; XUnwatch (Some false) (kind (only pd [])) px].
Definition ex_r1 : roles := role_watch no_roles pd [fx] (Create kqueue .| Remove kqueue).
Definition ex_r2 : roles := role_watch ex_r1 px [] (Write kqueue).
Definition ex_r3 : roles := role_rescan ex_r2 pd [fx; fy].
Definition ex_r4 : roles := role_unwatch ex_r3 px [].
Lemma run_snoc T cs c : run T (cs ++ [c]) = ((run T cs).1 ++ [(run1 T (run T cs).2 c).1], (run1 T (run T cs).2 c).2).
Proof. unfold run. by rewrite foldl_app. Qed.
Lemma ex_orderly : orderly kq isd true ex_r4 (run kq ex_cmds).2.
Proof.
  unfold ex_cmds.
  assert (∀ cs c, tstep kq (run kq cs).2 (run1 kq (run kq cs).2 c).1 (run kq (cs ++ [c])).2) as Hstep.
  { intros cs c. rewrite run_snoc. apply run1_step. }
  assert (orderly kq isd true ex_r1 (run kq (take 1 ex_cmds)).2) as H1.
  { pose proof (Hstep [] (XWatch (Some true) (kind (only pd [fx])) pd (Create kqueue .| Remove kqueue))) as Hs. cbn [run1] in Hs.
    eapply ord_watch; [apply ord_init|apply kind_willing|by vm_compute| |exact Hs]. split; [by vm_compute|]. apply Forall_singleton. by vm_compute. }
  assert (orderly kq isd true ex_r2 (run kq (take 2 ex_cmds)).2) as H2.
  { pose proof (Hstep (take 1 ex_cmds) (XWatch (Some false) (kind (only pd [])) px (Write kqueue))) as Hs. cbn [run1] in Hs.
    eapply ord_watch; [exact H1|apply kind_willing|by vm_compute| |exact Hs]. by vm_compute. }
  assert (orderly kq isd true ex_r3 (run kq (take 3 ex_cmds)).2) as H3.
  { pose proof (Hstep (take 2 ex_cmds) (XEventAt (Some true) (kind (only pd [fx; fy])) pd NoteWrite)) as Hs. cbn [run1] in Hs.
    destruct (tw_at (run kq (take 2 ex_cmds)).2 pd) as [w|] eqn:Hw; [|by vm_compute in Hw]. unfold run_event in Hs. cbn [fst] in Hs.
    epose proof (ord_event kq isd true ex_r2 _ (kind (only pd [fx; fy])) (keys_of (run kq (take 2 ex_cmds)).2) pd w [fx; fy] NoteWrite _ (run kq (take 3 ex_cmds)).2 H2 (kind_willing _) Hw) as K.
    rewrite decide_True in K by (split; by vm_compute). eapply K; [by vm_compute|intros _ _ _; by vm_compute| |exact Hs].
    split; [by vm_compute|]. repeat constructor; by vm_compute. }
  pose proof (Hstep (take 3 ex_cmds) (XUnwatch (Some false) (kind (only pd [])) px)) as Hs. cbn [run1] in Hs.
  eapply ord_unwatch; [exact H3|apply (kind_willing (only pd []))| |exact Hs]. by vm_compute.
Qed.
Example C50_hyps : orderly kq isd true ex_r4 (run kq ex_cmds).2 ∧ direct ex_r3 px = Write kqueue ∧ member ex_r3 px = Create kqueue .| Remove kqueue ∧
  direct ex_r4 px = 0 ∧ member ex_r4 py = Create kqueue .| Remove kqueue ∧ (sent <$> (run kq ex_cmds).1) = [[]; []; [TE py (Create kqueue) false]; []] ∧
  (tw_fd <$> tw_at (run kq ex_cmds).2 py) = Some 3%nat.
Proof. split; [apply ex_orderly|]. split_and!; by vm_compute. Qed.

(** Histories in general: a directory that is only a member of a watched one reports writes
    (it is watched for Write or Create of its directory).  What is found in it gets into the
    table without either role, and the OS is asked to watch it for nothing. *)
Definition pe : str := b "/d/e". Definition pf : str := b "/d/e/f". Definition fe : finfo := FI (b "e") true. Definition ff : finfo := FI (b "f") false.
Definition nested_cmds (T : trig) : list cmd :=
  [XWatch (Some true) (kind (only pd [fe])) pd (Create (t_plat T)); XEventAt (Some true) (kind (only pe [ff])) pe (t_write T)].
Theorem C50_no_role_refuted T : known_trig T → ∃ tr s w, texec T tr s ∧ tw_at s pf = Some w ∧ tw_eDir w = 0 ∧ tw_eNonDir w = 0 ∧ reg_at T s pf = Some 0.
Proof.
  intros HT. exists (run T (nested_cmds T)).1, (run T (nested_cmds T)).2. destruct (tw_at (run T (nested_cmds T)).2 pf) as [w|] eqn:Hw.
  - exists w. split; [apply run_texec; fresh_fds|]. split; [done|].
    assert ((λ w, (tw_eDir w, tw_eNonDir w)) <$> tw_at (run T (nested_cmds T)).2 pf = Some (0, 0)) as K by (destruct HT as [-> | ->]; by vm_compute).
    rewrite Hw in K. cbn in K. apply Some_inj, pair_equal_spec in K as [-> ->]. split_and!; [done|done|]. destruct HT as [-> | ->]; by vm_compute.
  - destruct HT as [-> | ->]; by vm_compute in Hw.
Qed.
(** And a file that was removed while its directory was watched stays in the table after the
    directory is unwatched. *)
Definition stale_cmds (T : trig) : list cmd :=
  [XWatch (Some true) (kind (only pd [fx])) pd (Create (t_plat T)); XEventAt (Some true) (kind (only pd [])) pd (t_write T);
   XUnwatch (Some true) (kind (only pd [])) pd].
Theorem C50_stale_refuted T : known_trig T → ∃ tr s, texec T tr s ∧ (returned <$> tr) = [Some ROk; None; Some ROk] ∧
  tw_at s pd = None ∧ (tw_e <$> tw_at s px) = Some (Create (t_plat T)).
Proof.
  intros HT. exists (run T (stale_cmds T)).1, (run T (stale_cmds T)).2. split; [apply run_texec; fresh_fds|].
  destruct HT as [-> | ->]; split_and!; by vm_compute.
Qed.

(** ** C51: rescans *)
(** In any history: a directory in the table reports a write, and its re-registration does
    not fail.  Its entries are gone through in the order they are listed; for each the
    finding (already known; new and can be watched; new and ignored; gone; failed) decides
    what is reported and what becomes of it. *)
Theorem C51_rescan T tr s st A ord d w ge ls tp s' evn : texec T tr s → fresh_fd A → d = topath tp → Forall proper tp →
  tw_at s d = Some w → tw_dir w = true → ge .& (t_rename T .| t_remove T) = 0 → ge .& t_write T ≠ 0 →
  a_watch A d = SOk → a_ls A d = Some ls → Forall (λ fi, proper (fi_name fi)) ls → NoDup (fi_name <$> ls) →
  tstep T s (TEvent st A ord (ident_of T w) ge evn) s' →
  evn = (ls ≫= λ fi, scan_event T (tw_eDir w) d fi (finding_of T A (in_table s (join d (fi_name fi))) (join d (fi_name fi)))) ∧
  (∀ fi : finfo, fi ∈ ls → scanned T A (tw_eDir w) s s' fi (join d (fi_name fi))) ∧
  (∀ q, q ∉ entries d ls → tw_at s' q = tw_at s q ∧ (q ≠ d → reg_at T s' q = reg_at T s q)) ∧
  (∀ y, st = Some y → reg_at T s' d = Some (t_encode T (tw_e w) y)).
Proof.
  intros Hx HA -> Hp Hat Hdir Hge Hwr HW Hls Hpr Hnd Hs. destruct (entries_distinct tp ls Hp Hpr Hnd) as [K1 K2].
  inversion Hs as [| | |? ? ? ? ? ? ? _ H]; subst. apply texec_inv in Hx as Hi. by eapply rescan_process.
Qed.
(** If the OS refuses nothing: a Create for exactly the entries that were not in the table
    (if the directory is watched for Create), in the order of the listing, and after it all
    are, and watched. *)
Theorem C51_created_partial T tr s st A ord d w ge ls tp s' evn : texec T tr s → willing A → d = topath tp → Forall proper tp →
  tw_at s d = Some w → tw_dir w = true → ge .& (t_rename T .| t_remove T) = 0 → ge .& t_write T ≠ 0 →
  a_ls A d = Some ls → Forall (λ fi, proper (fi_name fi)) ls → NoDup (fi_name <$> ls) →
  tstep T s (TEvent st A ord (ident_of T w) ge evn) s' →
  evn = (if decide (tw_eDir w .& Create (t_plat T) = 0) then [] else (λ fi, TE (join d (fi_name fi)) (Create (t_plat T)) (fi_dir fi)) <$> new_entries s d ls) ∧
  (∀ fi : finfo, fi ∈ ls → ∃ x, tw_at s' (join d (fi_name fi)) = Some x ∧
     tw_eDir x = direct_at s (join d (fi_name fi)) ∧ tw_eNonDir x = member_at s (join d (fi_name fi)) .| tw_eDir w ∧
     reg_at T s' (join d (fi_name fi)) = Some (t_encode T (tw_e x) (fi_dir fi))).
Proof.
  intros Hx HA Hd Hp Hat Hdir Hge Hwr Hls Hpr Hnd Hs.
  destruct (C51_rescan T tr s st A ord d w ge ls tp s' evn Hx (wl_fd _ HA) Hd Hp Hat Hdir Hge Hwr (wl_watch _ HA d) Hls Hpr Hnd Hs) as (E&S&_&_).
  assert (∀ known q, finding_of T A known q = if known then Known else Found) as F.
  { intros known q. unfold finding_of. rewrite (wl_watch _ HA), (wl_new _ HA). by destruct known, (t_fds T). }
  split.
  - rewrite E. clear - F. induction ls as [|fi ls IH]; [by destruct (decide _)|]. cbn [mbind list_bind]. rewrite IH.
    unfold new_entries. rewrite filter_cons. unfold in_table. destruct (tw_at s (join d (fi_name fi))) as [x|] eqn:Ht.
    + rewrite F, bool_decide_eq_true_2 by eauto. rewrite (decide_False (P := Some x = None)) by done. done.
    + rewrite F, bool_decide_eq_false_2 by (by intros [? ?]). rewrite (decide_True (P := None = None)) by done. cbn [scan_event]. by destruct (decide _).
  - intros fi Hfi. specialize (S fi Hfi). unfold scanned in S. rewrite F in S. by destruct (in_table s _).
Qed.
(** So each new file is reported once: as long as it stays in the table the next rescans do
    not report it. *)
Theorem C51_once_partial T tr s st A ord d w ge ls tp s' evn : texec T tr s → willing A → d = topath tp → Forall proper tp →
  tw_at s d = Some w → tw_dir w = true → ge .& (t_rename T .| t_remove T) = 0 → ge .& t_write T ≠ 0 →
  a_ls A d = Some ls → Forall (λ fi, proper (fi_name fi)) ls → NoDup (fi_name <$> ls) →
  tstep T s (TEvent st A ord (ident_of T w) ge evn) s' →
  ∀ e (q : str), is_Some (tw_at s q) → TE q (Create (t_plat T)) e ∉ evn.
Proof.
  intros Hx HA Hd Hp Hat Hdir Hge Hwr Hls Hpr Hnd Hs e q [y Hq] Hin.
  destruct (C51_created_partial T tr s st A ord d w ge ls tp s' evn Hx HA Hd Hp Hat Hdir Hge Hwr Hls Hpr Hnd Hs) as [-> _].
  destruct (decide _); [by apply elem_of_nil in Hin|]. apply elem_of_list_fmap in Hin as (fi&[= -> _]&Hfi). unfold new_entries in Hfi.
  apply elem_of_list_filter in Hfi as [Hn _]. congruence.
Qed.
(** An execution: /d contains x and is watched, y appears, then z. *)
Definition fz : finfo := FI (b "z") true.
Definition scan_cmds (T : trig) : list cmd :=
  [XWatch (Some true) (kind (only pd [fx])) pd (Create (t_plat T)); XEventAt (Some true) (kind (only pd [fx; fy])) pd (t_write T);
   XEventAt (Some true) (kind (only pd [fz; fx; fy])) pd (t_write T)].
Example C51_hyps T : known_trig T →
  texec T (run T (take 1 (scan_cmds T))).1 (run T (take 1 (scan_cmds T))).2 ∧ pd = topath [b "d"] ∧ Forall proper [b "d"] ∧
  (tw_dir <$> tw_at (run T (take 1 (scan_cmds T))).2 pd) = Some true ∧ (t_write T .& (t_rename T .| t_remove T)) = 0 ∧ t_write T ≠ 0 ∧
  Forall (λ fi, proper (fi_name fi)) [fx; fy] ∧ NoDup (fi_name <$> [fx; fy]) ∧
  (sent <$> (run T (scan_cmds T)).1) = [[]; [TE py (Create (t_plat T)) false]; [TE (b "/d/z") (Create (t_plat T)) true]].
Proof.
  intros HT. split; [apply run_texec; fresh_fds|]. split; [by vm_compute|].
  assert (∀ c, bool_decide (c ≠ []) && bool_decide (c ≠ dot) && bool_decide (c ≠ dotdot) && bool_decide (slash ∉ c) = true → proper c) as K.
  { intros c [[[H1 H2]%andb_true_iff H3]%andb_true_iff H4]%andb_true_iff. split_and!; by eapply bool_decide_eq_true_1. }
  split; [apply Forall_singleton, K; by vm_compute|]. split; [destruct HT as [-> | ->]; by vm_compute|]. split; [destruct HT as [-> | ->]; by vm_compute|].
  split; [destruct HT as [-> | ->]; by vm_compute|]. split; [repeat constructor; apply K; by vm_compute|].
  split; [apply (bool_decide_unpack _); by vm_compute|]. destruct HT as [-> | ->]; by vm_compute.
Qed.
(** kqueue: an entry that is ignored (a dangling link, a socket) is reported by every rescan
    and is never watched. *)
Definition skip_cmds : list cmd :=
  let A := skipping (λ p, bool_decide (p = py)) (only pd [fx; fy]) in
  [XWatch (Some true) (kind (only pd [fx])) pd (Create kqueue); XEventAt (Some true) A pd NoteWrite; XEventAt (Some true) A pd NoteWrite].
Theorem C51_ignored_refuted : ∃ tr s, texec kq tr s ∧ (sent <$> tr) = [[]; [TE py (Create kqueue) false]; [TE py (Create kqueue) false]] ∧ tw_at s py = None.
Proof.
  exists (run kq skip_cmds).1, (run kq skip_cmds).2. split; [apply run_texec; fresh_fds|]. split; by vm_compute.
Qed.

(** ** C52: Close *)
(** There is a schedule after which Close, holding the lock, waits for the monitor while the
    monitor waits for the lock: Close does not return however the goroutines go on. *)
Theorem C52_deadlock_refuted cap : ∃ n s, csteps cap anybody n (cinit true) s ∧ cc s ≠ CRet ∧ ∀ ok m s', csteps cap ok m s s' → cc s' ≠ CRet.
Proof.
  exists 4%nat, (CS CRecv MLock (Some HClose) 0 true 0 0). split_and!; [|done|].
  - eapply csteps_S with (a := System); [done|apply SFile|]. eapply csteps_S with (a := Monitor); [done|apply SWaitFile|].
    eapply csteps_S with (a := Closer); [done|apply SLock|]. eapply csteps_S with (a := Closer); [done|apply SStop|]. constructor.
  - intros ok m s' H. assert (stuck (CS CRecv MLock (Some HClose) 0 true 0 0)) as K by done. destruct (stuck_steps _ _ _ _ _ K H) as [-> _]. done.
Qed.
(** If Init fails the monitor is not started; if Stop then succeeds, Close, which newWatcher
    calls, never returns. *)
Theorem C52_failed_start_refuted cap : ∃ n s, csteps cap anybody n (cinit false) s ∧ cc s ≠ CRet ∧ ∀ ok m s', csteps cap ok m s s' → cc s' ≠ CRet.
Proof.
  exists 2%nat, (CS CRecv MNone (Some HClose) 0 true 0 0). split_and!; [|done|].
  - eapply csteps_S with (a := Closer); [done|apply SLock|]. eapply csteps_S with (a := Closer); [done|apply SStop|]. constructor.
  - intros ok m s' H. assert (unstarted (CS CRecv MNone (Some HClose) 0 true 0 0)) as K by done. destruct (unstarted_steps _ _ _ _ _ K H) as [-> _]. done.
Qed.
(** Close returns under every schedule, in at most [weight s] steps of all goroutines, if when
    it gets the lock no file event is pending, the monitor does not have one, and the OS
    reports none until Close returns. *)
Theorem C52_returns_partial cap n s m s' : (0 < cap)%nat → csteps cap anybody n (cinit true) s → cc s = CStop → pend s = 0%nat → mc s ≠ MLock →
  uptoret cap m s s' → (m ≤ weight s)%nat ∧ (cc s' = CRet ∨ ∃ a s'', nofiles a ∧ cstep cap a s' s'').
Proof. intros Hcap Hr Hc Hp Hm. apply quiet_run; [done|]. by eapply reached_quiet. Qed.
Example C52_hyps : ∃ n s m s', csteps 128 anybody n (cinit true) s ∧ cc s = CStop ∧ pend s = 0%nat ∧ mc s = MSend 2 ∧ uptoret 128 m s s' ∧ cc s' = CRet.
Proof.
  exists 5%nat, (CS CStop (MSend 2) (Some HClose) 0 false 0 0), 8%nat, (CS CRet MExit None 0 true 0 2). split_and!; try done.
  - eapply csteps_S with (a := System); [done|apply SFile|]. eapply csteps_S with (a := Monitor); [done|apply SWaitFile|].
    eapply csteps_S with (a := Monitor); [done|apply SMonLock|]. eapply csteps_S with (a := Monitor); [done|apply (SProc _ _ _ _ _ _ _ 2)|].
    eapply csteps_S with (a := Closer); [done|apply SLock|]. constructor.
  - eapply uptoret_S with (a := Closer); [done|done|apply SStop|].
    eapply uptoret_S with (a := Monitor); [done|done|apply SSend; lia|]. eapply uptoret_S with (a := Monitor); [done|done|apply SSend; lia|].
    eapply uptoret_S with (a := Monitor); [done|done|apply SSent|]. eapply uptoret_S with (a := Monitor); [done|done|apply SWaitStop|].
    eapply uptoret_S with (a := Monitor); [done|done|apply SStopped|]. eapply uptoret_S with (a := Closer); [done|done|apply SRecv|].
    eapply uptoret_S with (a := Closer); [done|done|apply SClean|]. constructor.
Qed.
Print Assumptions C49_kqueue_requested.
Print Assumptions C49_fen_requested.
Print Assumptions C49_decoded.
Print Assumptions C49_only_requested.
Print Assumptions C49_order.
Print Assumptions C49_round_trip.
Print Assumptions C49_create.
Print Assumptions C50_tables_agree.
Print Assumptions C50_descriptors.
Print Assumptions C50_orderly_partial.
Print Assumptions C50_other_role_partial.
Print Assumptions C50_no_role_refuted.
Print Assumptions C50_stale_refuted.
Print Assumptions C51_rescan.
Print Assumptions C51_created_partial.
Print Assumptions C51_once_partial.
Print Assumptions C51_ignored_refuted.
Print Assumptions C52_deadlock_refuted.
Print Assumptions C52_failed_start_refuted.
Print Assumptions C52_returns_partial.
