(** * Property theorems C30-C35: the tree used where the OS has recursive watches
    (macOS, Windows). *)
From Verif Require Import Base Event Watchpoint WatchpointFacts Paths PathsFacts Loop LoopFacts
  Node NodeFacts SpecTree WalkFacts RootFacts NonRec NonRecWp Rec SpecNonRec SpecNonRecOS NonRecDisp NonRecStop SpecOS SpecRec
  RecFacts RecReg RecStop RecDisp RecStep RecMask NonRecRun RecRun Prop_Basics Prop_NonRec.
Local Open Scope N_scope.

Section rec_props.
Context (P : platform) (HP : platform_ok P) (HR : windows P = true → P = readdcw).
Context (sepc : ascii) (w : bool) (isvol : str → Prop).
Notation nameof := (nameof sepc w).
Notation renv := (renv P sepc w isvol).
Notation rpath := (rpath sepc w isvol).
Notation rinv := (rinv P sepc w isvol).
Notation rop_ok := (rop_ok P sepc w isvol).
Notation rstep := (rstep sepc w).
Notation rexec := (rexec P sepc w isvol).
Notation rreported := (rreported P sepc w isvol).

(** ** C30: exact delivery *)
(** When the Watch calls succeeded, each channel is offered a report exactly as often
    as its registrations demand.  On Windows this is so for reports other than of
    modifications. *)
Theorem C30_exact_delivery tr s E ei d c n :
  rexec tr s → all_ok tr → renv E → rreported ei d c → unmodified P ei →
  rec_offered E s ei (KUser n) = deliveries P (asked P tr) n (needs P ei) d c.
Proof.
  intros Hx Hok HE Hrep Hmod. destruct (rexec_inv P HP sepc w isvol _ _ Hx) as [Ht _].
  rewrite (rec_offered_deliveries P HP HR sepc w isvol E s ei d c n) by done.
  apply deliveries_ext. intros q _. by eapply rexec_asked.
Qed.
(** Whatever failed, delivery is exact for some registrations allowed by the history. *)
Theorem C30_exact_delivery_always tr s :
  rexec tr s → ∃ g, rregs P tr g ∧
    ∀ E ei d c n, renv E → rreported ei d c → unmodified P ei →
      rec_offered E s ei (KUser n) = deliveries P g n (needs P ei) d c.
Proof.
  intros Hx. destruct (rexec_inv P HP sepc w isvol _ _ Hx) as [Ht Hg]. exists (rgs (st_tree s)). split; [done|].
  intros E ei d c n HE Hrep Hmod. by apply (rec_offered_deliveries P HP HR sepc w isvol).
Qed.
(** A native Windows report of a modification is offered once for every registration,
    recursive or not, on the path itself or on any directory above it that asks for
    some kind of modification. *)
Definition asks_modified (g : path → positive → N) (n : positive) (q : path) : nat :=
  if decide (g q n .& fileNotifyChangeModified = 0) then 0 else 1.
Theorem C30_windows_modified tr s E ei d c n :
  rexec tr s → all_ok tr → renv E → rreported ei d c →
  windows P = true → needs P ei = fileNotifyChangeModified →
  rec_offered E s ei (KUser n) =
    foldr Nat.add 0%nat ((λ k, asks_modified (asked P tr) n (take k (d ++ [c]))) <$> seq 0 (length d + 2)).
Proof.
  intros Hx Hok HE Hrep Hw Hneed. destruct (rexec_inv P HP sepc w isvol _ _ Hx) as [Ht _].
  destruct (rec_offered_hits P HP HR sepc w isvol E s ei d c n HE Ht Hrep) as [-> _]. rewrite Hneed.
  destruct Hrep as (He&_&Hd&Hc&_). assert ([] ∉ d) as Hdp by apply Hd.
  assert (∀ x q, [] ∉ q → (x = 0 ∨ x = recursive P) →
    hit P (st_tree s) n (fileNotifyChangeModified .| x) q = asks_modified (asked P tr) n q) as Hhit.
  { intros x q Hq Hxx. unfold hit, asks_modified. rewrite <-(rexec_asked P HP sepc w isvol tr s Hx Hok), rgs_plain by done.
    set (g := rureg (st_tree s) q n).
    assert (disj_ev g (omit P)) as Hg by (apply wpd_get_omit; by eapply rinv_wp).
    assert (matches P g (fileNotifyChangeModified .| x) = true ↔ g .& fileNotifyChangeModified ≠ 0) as Hm.
    { rewrite matches_win; [|done|].
      - split.
        + intros [_ [H|(i&H1&H2&_)]].
          * assert (has fileNotifyChangeModified 2) as Hb by (by vm_compute).
            apply nonzero_bit. exists 2. apply has_land. split; [apply H; apply has_lor; by left|done].
          * apply nonzero_bit. exists i. by apply has_land.
        + intros [i [H1 H2]%has_land]%nonzero_bit. split; [done|]. right. exists i. split_and!; [done|done|]. apply has_lor. by left.
      - assert (disj_ev fileNotifyChangeModified (omit P)) as H1 by (rewrite (HR Hw); apply land_zero_disj; by vm_compute).
        pose proof (d_re_om P HP) as H2. destruct Hxx as [->| ->].
        + by rewrite N.lor_0_r.
        + revert H1 H2. generalize fileNotifyChangeModified. clear. intros. bits. }
    destruct (decide (g .& fileNotifyChangeModified = 0)) as [Hz|Hz].
    - destruct (matches P g _); [|done]. by apply Hm in Hz.
    - destruct (matches P g _) eqn:Em; [done|]. exfalso. apply Hm in Hz. done. }
  replace (length d + 2)%nat with (length d + 1 + 1)%nat by lia. rewrite !seq_app, !fmap_app.
  change (foldr Nat.add 0%nat) with nsum. rewrite !nsum_app. cbn [seq]. rewrite !fmap_cons, fmap_nil.
  assert (∀ x, nsum [x] = x) as -> by (intros; unfold nsum; simpl; lia).
  assert (∀ x, nsum [x] = x) as -> by (intros; unfold nsum; simpl; lia).
  rewrite Nat.add_0_l, take_app, (take_ge (d ++ [c])) by (rewrite app_length; simpl; lia).
  f_equal; [f_equal|].
  - apply nsum_ext. intros k [_ Hk]%elem_of_seq. rewrite Hhit; [|by apply take_plain|by right].
    rewrite take_app_le by lia. done.
  - rewrite <-(Hhit 0); [by rewrite N.lor_0_r|done|by left].
  - rewrite <-(Hhit 0); [by rewrite N.lor_0_r| |by left]. intros [?|K%elem_of_list_singleton]%elem_of_app; done.
Qed.

(** ** C03: Watch only expands (recursive tree) *)
(** A Watch call, successful or not, takes no event away from anyone. *)
Theorem C03_rec_watch_expands tr s E p isrec n e s' r E' ei d c m :
  rexec tr s → renv E → rop_ok (NWatch p isrec n e) → rstep E s (NWatch p isrec n e) = (s', r) → st_panic s' = false →
  renv E' → rreported ei d c →
  (rec_offered E' s ei (KUser m) ≤ rec_offered E' s' ei (KUser m))%nat.
Proof.
  intros Hx HE Ho Hs Hpan HE' Hrep. destruct (rexec_inv P HP sepc w isvol _ _ Hx) as [Ht _].
  destruct (rstep_regs P HP sepc w isvol E s _ s' r HE Ho Ht Hs Hpan) as [Ht' [Hoth Hown]].
  destruct (rec_offered_hits P HP HR sepc w isvol E' s ei d c m HE' Ht Hrep) as [-> _].
  destruct (rec_offered_hits P HP HR sepc w isvol E' s' ei d c m HE' Ht' Hrep) as [-> _].
  destruct Hrep as (He&Hint&Hd&Hc&_). assert ([] ∉ d) as Hdp by apply Hd.
  assert (disj_ev (ei_event ei) (omit P)) as Hom by (clear - Hint; unfold internal in Hint; bits).
  destruct (needs_ok P HR ei He Hom) as [Hn1 Hn2].
  assert (disj_ev (needs P ei) (recursive P)) as Hnr by (by apply needs_norec).
  assert (disj_ev (needs P ei .| recursive P) (omit P)) as Hr2.
  { pose proof (d_re_om P HP) as K. clear - K Hn2. bits. }
  assert (∀ q x, [] ∉ q → x = 0 ∨ x = recursive P →
    (hit P (st_tree s) m (needs P ei .| x) q ≤ hit P (st_tree s') m (needs P ei .| x) q)%nat) as Hh.
  { intros q x Hq Hxx. unfold hit. rewrite <-!rgs_plain by done.
    assert (disj_ev (rgs (st_tree s') q m) (omit P)) as Hg.
    { rewrite rgs_plain by done. apply wpd_get_omit. by eapply rinv_wp. }
    assert (disj_ev (needs P ei .| x) (omit P)) as Hxo by (destruct Hxx as [->| ->]; [by rewrite N.lor_0_r|done]).
    destruct (matches P (rgs (st_tree s) q m) (needs P ei .| x)) eqn:Em; [|lia].
    assert (incl_ev (rgs (st_tree s) q m) (rgs (st_tree s') q m)) as Hi.
    { destruct (decide ((q, m) = (p, n))) as [[= -> ->]|Hne].
      - destruct r; [rewrite Hown; clear; bits|..]; (destruct Hown as [[Hown|Hown] _]; [done|]);
          (exfalso; by eapply (bare_rec_no_match P HR)).
      - rewrite Hoth by done. clear. bits. }
    by rewrite (matches_mono P _ _ _ Hxo Hi Hg Em). }
  repeat apply Nat.add_le_mono.
  - generalize (seq 0 (length d)). intros l. induction l as [|k l IH]; [done|]. rewrite !fmap_cons. unfold nsum in *. simpl.
    specialize (Hh (take k d) (recursive P) (take_plain k d Hdp) ltac:(by right)). lia.
  - specialize (Hh d 0 Hdp ltac:(by left)). by rewrite N.lor_0_r in Hh.
  - specialize (Hh (d ++ [c]) 0). rewrite N.lor_0_r in Hh. apply Hh; [|by left].
    intros [?|K%elem_of_list_singleton]%elem_of_app; done.
Qed.

(** ** C31: Stop silences exactly one channel *)
(** These hold whatever failed before, and for every report. *)
Lemma rregs_not_outstanding tr g n : rregs P tr g → ¬ outstanding tr n → ∀ p, g p n = 0.
Proof.
  induction 1 as [g Hg|tr g o r g' Hr IH Hst]; intros Hno p; [apply Hg|].
  rewrite (outstanding_snoc P HP) in Hno. destruct o as [q isrec m e|m|]; cbn [rreg_after] in Hst; [| |done].
  - destruct Hst as [H1 _]. assert (n ≠ m) by (intros ->; apply Hno; by left). rewrite H1 by congruence.
    apply IH. intros Ho. apply Hno. by right.
  - rewrite Hst. destruct (decide (n = m)) as [->|Hne]; [done|]. apply IH. intros Ho. by apply Hno.
Qed.
Theorem C31_stopped_silent tr s E ei d c n :
  rexec tr s → ¬ outstanding tr n → renv E → rreported ei d c → rec_offered E s ei (KUser n) = 0%nat.
Proof.
  intros Hx Hno HE Hrep. destruct (rexec_inv P HP sepc w isvol _ _ Hx) as [Ht Hg].
  pose proof (rregs_not_outstanding _ _ _ Hg Hno) as H0.
  destruct (rec_offered_hits P HP HR sepc w isvol E s ei d c n HE Ht Hrep) as [-> _].
  destruct Hrep as (He&Hint&Hd&Hc&_). assert ([] ∉ d) as Hdp by apply Hd.
  assert (disj_ev (ei_event ei) (omit P)) as Ho by (clear - Hint; unfold internal in Hint; bits).
  destruct (needs_ok P HR ei He Ho) as [Hn1 Hn2].
  assert (∀ m q, [] ∉ q → m ≠ 0 → disj_ev m (omit P) → hit P (st_tree s) n m q = 0%nat) as Hz.
  { intros m q Hq Hm Hmo. unfold hit. rewrite <-rgs_plain, H0 by done. by rewrite (matches_0 P). }
  assert (disj_ev (needs P ei .| recursive P) (omit P)) as Hr.
  { pose proof (d_re_om P HP) as K. clear - K Hn2. bits. }
  assert (needs P ei .| recursive P ≠ 0) as Hr0. { intros K. apply Hn1. clear - K. bits. }
  rewrite !(Hz (needs P ei)); try done.
  - rewrite !Nat.add_0_r. transitivity (nsum ((λ _, 0%nat) <$> seq 0 (length d))).
    + apply nsum_ext. intros k _. apply Hz; [by apply take_plain|done|done].
    + unfold nsum. generalize (seq 0 (length d)). clear. intros l. induction l as [|x l IH]; [done|]. rewrite fmap_cons. simpl. done.
  - intros [?|K%elem_of_list_singleton]%elem_of_app; done.
Qed.
Theorem C31_others_unchanged tr s E s' r n m E' ei d c :
  rexec tr s → renv E → rstep E s (NStop n) = (s', r) → m ≠ n → renv E' → rreported ei d c →
  rec_offered E' s' ei (KUser m) = rec_offered E' s ei (KUser m).
Proof.
  intros Hx HE Hs Hne HE' Hrep. destruct (rexec_inv P HP sepc w isvol _ _ Hx) as [Ht _].
  cbn [SpecRec.rstep] in Hs. injection Hs as <- <-.
  destruct (rec_Stop_spec P sepc w isvol E HE n s Ht) as (H1&_&_&H4).
  destruct (rec_offered_hits P HP HR sepc w isvol E' s ei d c m HE' Ht Hrep) as [-> _].
  destruct (rec_offered_hits P HP HR sepc w isvol E' _ ei d c m HE' H1 Hrep) as [-> _].
  destruct Hrep as (_&_&Hd&Hc&_). assert ([] ∉ d) as Hdp by apply Hd.
  assert (∀ x q, [] ∉ q → hit P (st_tree (rec_Stop E s (KUser n))) m x q = hit P (st_tree s) m x q) as Hh.
  { intros x q Hq. unfold hit, rureg. destruct (H4 q Hq) as [-> _]. rewrite (sdel_user P).
    - by rewrite decide_False.
    - by eapply rinv_wp. }
  f_equal; [f_equal|].
  - apply nsum_ext. intros k _. apply Hh. by apply take_plain.
  - by apply Hh.
  - apply Hh. intros [?|K%elem_of_list_singleton]%elem_of_app; done.
Qed.
End rec_props.

(** ** Instances and counterexamples *)
Notation C := (Create fsevents). Notation W := (Write fsevents). Notation R := (Remove fsevents).
(** The watcher accepts exactly the calls its documentation allows; it refuses
    everything. *)
Definition L : env := menv (lawful fsevents).
Definition B : env := menv (λ _ _, false).
Notation exec := (rexec fsevents slash false novol).
Notation run := (rrun slash false init_st).
Definition at_end (l : list (env * nop)) : st := (run l).2.
Definition trace_of (l : list (env * nop)) : list (nop * result) := (run l).1.
Lemma fsevents_ok : platform_ok fsevents.
Proof. apply C56_constants. do 3 right. left. Qed.
Lemma readdcw_ok : platform_ok readdcw.
Proof. apply C56_constants. do 4 right. left. Qed.
Lemma L_obliging : obliging fsevents L.
Proof. by apply (lawful_obliging L). Qed.
Local Ltac mops := repeat (apply Forall_cons; split; [split; [apply menv_ok|by vm_compute]|]); apply Forall_nil; done.
Lemma mexec_ok l : Forall (good_rop fsevents slash false) l → calm slash false init_st l = true → exec (trace_of l) (at_end l).
Proof. apply (rrun_rexec fsevents slash false). Qed.
Local Ltac mexec := apply mexec_ok; [mops|by vm_compute].
Definition mevt (e : N) (p : string) : event_info := EI e (b p) (Some false) fTypeUnknown.
Local Ltac rep := apply (rreportedb_ok fsevents slash false); by vm_compute.

(** Channel 1 recursive on /a, channel 2 on /a/b, channel 3 recursive on /a/b/c. *)
Definition ops30 : list (env * nop) := [
  (L, NWatch (pth "a/b") false 2 W); (L, NWatch (pth "a") true 1 (C .| W)); (L, NWatch (pth "a/b/c") true 3 W)].
Example C30_ex :
  exec (trace_of ops30) (at_end ops30) ∧ all_ok (trace_of ops30) ∧
  rreported fsevents slash false novol (mevt W "/a/b/c/f") (pth "a/b/c") (b "f") ∧ unmodified fsevents (mevt W "/a/b/c/f") ∧
  rec_offered L (at_end ops30) (mevt W "/a/b/c/f") (KUser 1) = 1%nat ∧
  rec_offered L (at_end ops30) (mevt W "/a/b/c/f") (KUser 2) = 0%nat ∧
  rec_offered L (at_end ops30) (mevt W "/a/b/c/f") (KUser 3) = 1%nat ∧
  rec_offered L (at_end ops30) (mevt W "/a/b/f") (KUser 2) = 1%nat.
Proof. split_and!; [mexec|apply all_okb_ok; by vm_compute|rep|done|by vm_compute..]. Qed.
Example C31_ex :
  let s := at_end ops30 in let s' := (rstep slash false L s (NStop 1)).1 in
  rec_offered L s (mevt W "/a/b/c/f") (KUser 1) = 1%nat ∧ rec_offered L s' (mevt W "/a/b/c/f") (KUser 1) = 0%nat ∧
  rec_offered L s' (mevt W "/a/b/c/f") (KUser 3) = 1%nat ∧
  ¬ outstanding (trace_of ops30 ++ [(NStop 1, ROk)]) 1.
Proof. split_and!; [by vm_compute..|]. by intros [? _]%(outstanding_snoc fsevents fsevents_ok). Qed.

Example C03_rec_ex :
  let x := rstep slash false B (at_end ops30) (NWatch (pth "a") true 1 R) in
  rop_ok fsevents slash false novol (NWatch (pth "a") true 1 R) ∧ x.2 = RErr ∧ st_panic x.1 = false ∧
  rec_offered L (at_end ops30) (mevt W "/a/b/c/f") (KUser 1) = 1%nat ∧ rec_offered L x.1 (mevt W "/a/b/c/f") (KUser 1) = 1%nat.
Proof. split_and!; [apply (rop_okb_ok fsevents slash false); by vm_compute|by vm_compute..]. Qed.

(** *** C30: Watch on the root directory succeeds and delivers nothing. *)
Theorem C30_root_refuted :
  ∃ s, rec_Watch L init_st (b "/") true (KUser 1) W = (s, ROk) ∧
    os_watches (st_log s) !! b "/" = Some (W, true) ∧
    rreported fsevents slash false novol (mevt W "/a/f") (pth "a") (b "f") ∧
    rec_offered L s (mevt W "/a/f") (KUser 1) = 0%nat.
Proof. eexists. split_and!; [by vm_compute|by vm_compute|rep|by vm_compute]. Qed.
(** *** C30 on Windows: a channel that asked, not recursively, for size changes in C:\a
    is offered a modification of C:\a\b\f. *)
Definition wpth (s : string) : path := b "C:" :: pth s.
Definition WL : env := wenv (lawful readdcw).
Definition wops : list (env * nop) := [(WL, NWatch (wpth "a") false 1 FileNotifyChangeSize)].
Definition wevt : event_info := EI FileActionModified (b "C:\a\b\f") (Some false) fTypeUnknown.
Theorem C30_windows_refuted :
  let r := rrun backslash true init_st wops in
  rexec readdcw backslash true drive r.1 r.2 ∧ all_ok r.1 ∧
  rreported readdcw backslash true drive wevt (wpth "a/b") (b "f") ∧
  rec_offered WL r.2 wevt (KUser 1) = 1%nat ∧
  deliveries readdcw (asked readdcw r.1) 1 (needs readdcw wevt) (wpth "a/b") (b "f") = 0%nat ∧
  deliveries readdcw (asked readdcw r.1) 1 FileNotifyChangeSize (wpth "a/b") (b "f") = 0%nat.
Proof.
  cbv zeta. split_and!; [|apply all_okb_ok; by vm_compute| |by vm_compute..].
  - apply (rrun_rexec readdcw backslash true); [|by vm_compute]. apply Forall_cons. split; [split; [apply wenv_ok|by vm_compute]|by apply Forall_nil].
  - apply (rreportedb_ok readdcw backslash true). by vm_compute.
Qed.
(** An instance of the exact theorems on Windows. *)
Definition wevt2 : event_info := EI FileActionAdded (b "C:\a\b\f") (Some false) fTypeFile.
Definition wops2 : list (env * nop) := [
  (WL, NWatch (wpth "a") true 1 FileNotifyChangeFileName); (WL, NWatch (wpth "a") false 2 FileNotifyChangeFileName);
  (WL, NWatch (wpth "a/b") false 3 (FileNotifyChangeFileName .| FileNotifyChangeSize))].
Example C30_windows_ex :
  let r := rrun backslash true init_st wops2 in
  rexec readdcw backslash true drive r.1 r.2 ∧ all_ok r.1 ∧ platform_ok readdcw ∧
  rreported readdcw backslash true drive wevt2 (wpth "a/b") (b "f") ∧ unmodified readdcw wevt2 ∧
  rec_offered WL r.2 wevt2 (KUser 1) = 1%nat ∧ rec_offered WL r.2 wevt2 (KUser 2) = 0%nat ∧
  rec_offered WL r.2 wevt2 (KUser 3) = 1%nat ∧
  needs readdcw wevt = fileNotifyChangeModified ∧ rec_offered WL r.2 wevt (KUser 3) = 1%nat.
Proof.
  cbv zeta. split_and!; [|apply all_okb_ok; by vm_compute|apply readdcw_ok| | |by vm_compute..].
  - apply (rrun_rexec readdcw backslash true); [|by vm_compute].
    repeat (apply Forall_cons; split; [split; [apply wenv_ok|by vm_compute]|]). by apply Forall_nil.
  - apply (rreportedb_ok readdcw backslash true). by vm_compute.
  - intros _. apply land_zero_disj. by vm_compute.
Qed.

(** *** C32: with a watcher that does everything it may be asked, and every Watch
    successful, registrations are left without OS watch. *)
(** Stopping a channel with a registration below another one's unwatches the latter. *)
Definition ops32a : list (env * nop) := [
  (L, NWatch (pth "a") true 1 C); (L, NWatch (pth "a/b") true 2 W); (L, NStop 2)].
(** A recursive registration beside an equal non-recursive one. *)
Definition ops32b : list (env * nop) := [(L, NWatch (pth "a") false 1 C); (L, NWatch (pth "a") true 2 C)].
(** A registration below a non-recursive one. *)
Definition ops32c : list (env * nop) := [(L, NWatch (pth "a") false 1 C); (L, NWatch (pth "a/b") false 2 C)].
Theorem C32_refuted :
  Forall (λ l, exec (trace_of l) (at_end l) ∧ all_ok (trace_of l) ∧
    ¬ all_covered fsevents slash false novol (asked fsevents (trace_of l)) (os_watches (st_log (at_end l))))
    [ops32a; ops32b; ops32c] ∧
  os_watches (st_log (at_end ops32a)) = ∅ ∧ asked fsevents (trace_of ops32a) (pth "a") 1 = C .| recursive fsevents.
Proof.
  split_and!; [|apply (bool_decide_unpack _); by vm_compute|by vm_compute].
  repeat (apply Forall_cons; split); [| | |done].
  - split_and!; [mexec|apply all_okb_ok; by vm_compute|]. intros H. specialize (H (pth "a") 1%positive ltac:(by vm_compute)).
    eapply (os_coversb_no slash false); [|exact H]. by vm_compute.
  - split_and!; [mexec|apply all_okb_ok; by vm_compute|]. intros H. specialize (H (pth "a") 2%positive ltac:(by vm_compute)).
    eapply (os_coversb_no slash false); [|exact H]. by vm_compute.
  - split_and!; [mexec|apply all_okb_ok; by vm_compute|]. intros H. specialize (H (pth "a/b") 2%positive ltac:(by vm_compute)).
    eapply (os_coversb_no slash false); [|exact H]. by vm_compute.
Qed.
(** *** C33: after one refusal by the OS the same Watch fails again although the OS is
    willing, and the third time it succeeds without any OS watch. *)
Definition ops33 : list (env * nop) := [
  (B, NWatch (pth "a") true 1 C); (L, NWatch (pth "a") true 1 C); (L, NWatch (pth "a") true 1 C)].
Theorem C33_refuted :
  exec (trace_of ops33) (at_end ops33) ∧ snd <$> trace_of ops33 = [RErr; RErr; ROk] ∧
  os_watches (st_log (at_end ops33)) = ∅ ∧ length (st_log (at_end ops33)) = 2%nat ∧
  rgs (st_tree (at_end (take 1 ops33))) (pth "a") 1 ≠ 0.
Proof. split_and!; [mexec|by vm_compute|apply (bool_decide_unpack _); by vm_compute|by vm_compute|by vm_compute]. Qed.
(** *** C34: panics, with a watcher that does everything it may be asked. *)
Definition ops34 : list (env * nop) := [
  (L, NWatch (pth "r/x/a") true 1 C); (L, NWatch (pth "r/x/a/b") true 2 W); (L, NStop 1);
  (L, NWatch (pth "r/x") true 3 C); (L, NWatch (pth "r/x/y") true 4 C)].
Theorem C34_refuted :
  exec (trace_of ops34) (at_end ops34) ∧
  rop_ok fsevents slash false novol (NWatch (pth "r") true 5 C) ∧
  st_panic (rstep slash false L (at_end ops34) (NWatch (pth "r") true 5 C)).1 = true ∧
  st_panic (rstep slash false L init_st (NWatch (pth "a") false 1 0)).1 = true.
Proof. split_and!; [mexec|apply (rop_okb_ok fsevents slash false); by vm_compute|by vm_compute..]. Qed.
(** *** C35: nested OS watches, with a watcher that does everything it may be asked. *)
Definition ops35 : list (env * nop) := [
  (L, NWatch (pth "a/b") true 1 C); (L, NWatch (pth "a/c") true 2 W); (L, NWatch (pth "a/b/c") true 3 C);
  (L, NStop 1); (L, NWatch (pth "a") true 4 W)].
Theorem C35_refuted :
  exec (trace_of ops35) (at_end ops35) ∧
  ¬ unrelated slash false novol (os_watches (st_log (at_end ops35))).
Proof.
  split; [mexec|]. intros H. destruct (H (pth "a") (pth "a/b")) as [K|K].
  - apply (rpathb_ok slash false). by vm_compute.
  - apply (rpathb_ok slash false). by vm_compute.
  - split; [|by vm_compute]. exists [b "b"]. by vm_compute.
  - apply (f_equal (λ x, bool_decide (x = None))) in K. by vm_compute in K.
  - apply (f_equal (λ x, bool_decide (x = None))) in K. by vm_compute in K.
Qed.

Print Assumptions C03_rec_watch_expands.
Print Assumptions C30_exact_delivery.
Print Assumptions C30_exact_delivery_always.
Print Assumptions C30_windows_modified.
Print Assumptions C31_stopped_silent.
Print Assumptions C31_others_unchanged.
Print Assumptions C30_root_refuted.
Print Assumptions C30_windows_refuted.
Print Assumptions C32_refuted.
Print Assumptions C33_refuted.
Print Assumptions C34_refuted.
Print Assumptions C35_refuted.
