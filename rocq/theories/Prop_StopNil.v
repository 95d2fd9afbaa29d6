(** * Property theorems C82: Stop(nil) takes nothing away from anybody. *)
From Verif Require Import Base Event Watchpoint WatchpointFacts Paths PathsFacts Loop LoopFacts
  Node NodeFacts SpecTree WalkFacts RootFacts NonRec NonRecWp Rec SpecNonRec SpecNonRecOS SpecOS SpecRec SpecStopNil
  NonRecFacts NonRecOps NonRecReg NonRecStep NonRecDisp NonRecOS NonRecStop NonRecCov NonRecRun
  RecFacts RecReg RecStop RecDisp RecStep RecMask RecRun StopNil RecStopNil Prop_Basics Prop_NonRec Prop_Rec.
Local Open Scope N_scope.

Section nonrec.
Context (P : platform) (HP : platform_ok P) (HW : windows P = false) (sepc : ascii).
Notation render := (render sepc).
Notation nenv := (nenv P sepc).
Notation nexec0 := (nexec0 P sepc).
Lemma nexec0_inv tr s : nexec0 tr s → tinv P sepc (st_tree s) ∧ st_panic s = false ∧ nregs P tr (ureg s).
Proof.
  induction 1 as [|tr s E o s' r Hx (I1&I2&I3) HE Ho Hs|tr s E Hx (I1&I2&I3) HE].
  - split_and!; [by apply tinv_init|done|]. apply (nexec_regs P HP sepc). constructor.
  - destruct (nstep_spec P HP sepc E s o s' r HE Ho I1 Hs) as (K1&K2&K3). split_and!; [done|by rewrite K2|]. by eapply nregs_step.
  - destruct (nr_StopNil_spec P HP sepc E s HE I1) as (K1&_&K2&_&K3&_). split_and!; [done|by rewrite K2|].
    clear - I3 K3. set (g := ureg (nr_Stop E s KNil)) in *. clearbody g.
    destruct I3 as [h H0|tr h o r h' H1 H2].
    + apply nregs_init. intros p n. by rewrite K3.
    + eapply nregs_step; [exact H1|]. destruct o as [p isrec n e|n|ev p]; cbn [reg_after] in *.
      * destruct H2 as [A B]. split; [intros q m Hne; by rewrite K3, A|]. by rewrite K3.
      * intros q m. by rewrite K3.
      * intros q m. by rewrite K3.
Qed.
(** With any number of calls Stop(nil) at any time, each channel is offered an event
    exactly as often as its registrations demand, as if these calls had not been made. *)
Theorem C82_delivery tr s E ei d c n :
  nexec0 tr s → no_failure tr → nenv E → reported P sepc ei d c →
  offered E s ei (KUser n) = deliveries P (asked P tr) n (ei_event ei) d c.
Proof.
  intros Hx Hnf HE (Hev&Hom&Hd&Hc&Hp). destruct (nexec0_inv _ _ Hx) as (Ht&_&Hg).
  destruct (dispatch_spec P HP HW sepc E s ei d c HE Ht Hev Hom Hd Hc Hp) as [-> _].
  apply deliveries_ext. intros q _. by apply nregs_asked.
Qed.
Theorem C82_delivery_always tr s :
  nexec0 tr s → ∃ g, nregs P tr g ∧
    ∀ E ei d c n, nenv E → reported P sepc ei d c →
      offered E s ei (KUser n) = deliveries P g n (ei_event ei) d c.
Proof.
  intros Hx. destruct (nexec0_inv _ _ Hx) as (Ht&_&Hg). exists (ureg s). split; [done|]. intros E ei d c n HE (Hev&Hom&Hd&Hc&Hp).
  by destruct (dispatch_spec P HP HW sepc E s ei d c HE Ht Hev Hom Hd Hc Hp) as [-> _].
Qed.
(** Nor does it panic. *)
Theorem C82_no_panic tr s : nexec0 tr s → st_panic s = false.
Proof. intros Hx. by destruct (nexec0_inv _ _ Hx) as (_&?&_). Qed.
(** Nobody is offered anything different afterwards. *)
Theorem C82_nothing_changes tr s E E' ei d c n :
  nexec0 tr s → nenv E → nenv E' → reported P sepc ei d c →
  offered E' (nr_Stop E s KNil) ei (KUser n) = offered E' s ei (KUser n).
Proof.
  intros Hx HE HE' (Hev&Hom&Hd&Hc&Hp). destruct (nexec0_inv _ _ Hx) as (Ht&_&_).
  destruct (nr_StopNil_spec P HP sepc E s HE Ht) as (Ht'&_&_&_&Hu&_).
  destruct (dispatch_spec P HP HW sepc E' s ei d c HE' Ht Hev Hom Hd Hc Hp) as [-> _].
  destruct (dispatch_spec P HP HW sepc E' _ ei d c HE' Ht' Hev Hom Hd Hc Hp) as [-> _].
  apply deliveries_ext. intros q _. apply Hu.
Qed.
(** The OS is asked for nothing but to go on watching some of the paths, for at least
    what everybody asked for there. *)
Theorem C82_calls tr s E :
  nexec_where P sepc os_good tr s → no_failure tr → nenv E →
  ∃ l, st_log (nr_Stop E s KNil) = st_log s ++ l ∧
    ∀ c ok, (c, ok) ∈ l → ∃ q x, c = WRewatch (render q) 0 x ∧ is_Some (os_watches (st_log s) !! render q) ∧
      x ≠ 0 ∧ disj_ev x (internal P) ∧ ∀ n, incl_ev (asked P tr q n .&^ internal P) x.
Proof.
  intros Hw Hnf HE. pose proof (nexec_where_nexec _ _ _ _ _ Hw) as Hx. destruct (nexec_osi P HP sepc tr s Hw) as [Ht Ho].
  destruct (nr_StopNil_spec P HP sepc E s HE Ht) as (_&_&_&_&_&l&Hl&Hr&_). exists l. split; [done|].
  intros c ok Hin. unfold refreshes in Hr. rewrite Forall_forall in Hr. destruct (Hr _ Hin) as (q&x&Hc&Hq&Hne&Hx0&Hint&Hu&_). cbn [fst] in Hc.
  exists q, x. subst c. rewrite (proj2 (oi_strict _ _ _ Ho q Hq)). split_and!; [done| |done|done|].
  - rewrite (oi_tab _ _ _ Ho) by (by eapply ti_comps). rewrite opt_ev_nz; [eauto|]. apply (nz_total P); [by eapply tinv_wp_at|apply Ho|done].
  - intros n. rewrite <-(ureg_asked P HP sepc tr s Hx Hnf). apply Hu.
Qed.
Lemma os_refreshed s l nm :
  refreshes P s l → Forall (λ x, x.2 = true) l →
  os_watches (st_log s ++ l) !! nm = os_watches (st_log s) !! nm ∨
  ∃ q x, name_at (st_tree s) q = nm ∧ refresh P (st_tree s) q x ∧ os_watches (st_log s ++ l) !! nm = Some (x, false).
Proof.
  induction l as [|[c ok] l IH] using rev_ind; [by rewrite app_nil_r; left|].
  intros [Hr Hr1]%Forall_app [Hk Hk1]%Forall_app. rewrite app_assoc, os_watches_snoc.
  apply Forall_singleton in Hr1 as (q&x&Hc&Hq). apply Forall_cons_1 in Hk1 as [Hk1 _]. cbn [fst snd] in *. rewrite Hc, Hk1. cbn [os_step].
  destruct (decide (name_at (st_tree s) q = nm)) as [<-|Hn].
  - right. exists q, x. by rewrite lookup_insert.
  - rewrite lookup_insert_ne by done. by apply IH.
Qed.
(** What everybody asked for is still reported afterwards ... *)
Theorem C82_still_registered tr s E p n :
  nexec_where P sepc os_good tr s → no_failure tr → nenv E → reliable E → comps_ok sepc p → asked P tr p n ≠ 0 →
  ∃ x, os_watches (st_log (nr_Stop E s KNil)) !! render p = Some (x, false) ∧ incl_ev (asked P tr p n .&^ internal P) x.
Proof.
  intros Hw Hnf HE Hrel Hp Ha. pose proof (nexec_where_nexec _ _ _ _ _ Hw) as Hx. destruct (nexec_osi P HP sepc tr s Hw) as [Ht Ho].
  destruct (nr_StopNil_spec P HP sepc E s HE Ht) as (_&_&_&_&_&l&->&Hr&Hok). specialize (Hok Hrel).
  destruct (os_refreshed s l (render p) Hr Hok) as [->|(q&x&Hn&Hq&->)]; [by eapply C19_registered|].
  exists x. split; [done|]. destruct Hq as (Hq&_&_&_&Hu&_).
  rewrite (proj2 (oi_strict _ _ _ Ho q Hq)) in Hn. apply render_inj in Hn as ->; [|by eapply ti_comps|done].
  rewrite <-(ureg_asked P HP sepc tr s Hx Hnf). apply Hu.
Qed.
(** ... and recursive watches still cover every directory below. *)
Theorem C82_still_covered tr D s E p n e q :
  fexec P sepc tr D s → nenv E → reliable E → in_force P tr p n e → q ∈ D → p `prefix_of` q →
  ∃ x, os_watches (st_log (nr_Stop E s KNil)) !! render q = Some (x, false) ∧ incl_ev (e .| Create P) x.
Proof.
  intros Hx HE Hrel Hf Hq Hpq. destruct (fexec_in_force P HP sepc _ _ _ _ _ _ Hx Hf) as (He&Hue&Hu&r&Hr&Hi).
  destruct (fexec_inv P HP sepc _ _ _ Hx) as (HD&Ht&[H0 Hc]&_).
  destruct (nexec_osi P HP sepc tr s (fexec_where P sepc _ _ _ Hx)) as [_ Ho].
  destruct (nr_StopNil_spec P HP sepc E s HE Ht) as (_&_&_&_&_&l&->&Hrf&Hok). specialize (Hok Hrel).
  destruct (os_refreshed s l (render q) Hrf Hok) as [->|(q'&x&Hn&Hq'&->)]; [by eapply C20_covered_partial|].
  exists x. split; [done|]. destruct Hq' as (Hs&_&_&_&Hus&Hab).
  assert (comps_ok sepc q) as Hcq by (by apply HD in Hq as (_&?&_)).
  rewrite (proj2 (oi_strict _ _ _ Ho q' Hs)) in Hn. apply render_inj in Hn as ->; [|by eapply ti_comps|done].
  assert (p ≠ []) as Hp0 by (intros ->; congruence). assert (p ∈ D) as HpD by (by eapply dirs_prefix).
  destruct (Hc p q r HpD Hq Hpq Hr) as (rq&Hrq&_). specialize (Hab ltac:(unfold rec_at in Hrq; rewrite Hrq; eauto)).
  assert (incl_ev (Create P) x) as HC by (clear - Hab; bits).
  assert (incl_ev e x) as Hex; [|clear - HC Hex; bits].
  destruct (decide (p = q)) as [->|Hne].
  - specialize (Hus n). unfold ureg in Hu. unfold user_ev in Hue. unfold vis in Hus. clear - Hus Hu Hue. bits.
  - destruct Hpq as [k ->]. destruct k as [|y k _] using rev_ind; [by rewrite app_nil_r in Hne|].
    rewrite app_assoc in *. unfold above_rec in Hab. rewrite decide_False in Hab by (by intros [_ ?]%app_eq_nil). rewrite removelast_snoc in Hab.
    assert (p ++ k ∈ D) as HkD. { apply HD in Hq as [[-> _]%app_eq_nil|?]; done. }
    destruct (Hc p (p ++ k) r HpD HkD ltac:(by apply prefix_app_r) Hr) as (rk&Hrk&Hik). unfold rec_at in Hrk.
    rewrite (wget_Some _ _ _ Hrk) in Hab. unfold user_ev in Hue. unfold vis in Hab. clear - Hab Hi Hik Hue. bits.
Qed.
End nonrec.

Section rec.
Context (P : platform) (HP : platform_ok P) (HR : windows P = true → P = readdcw).
Context (sepc : ascii) (w : bool) (isvol : str → Prop).
Notation renv := (renv P sepc w isvol).
Notation rexec0 := (rexec0 P sepc w isvol).
Notation rreported := (rreported P sepc w isvol).
Lemma rexec0_inv tr s : rexec0 tr s → rinv P sepc w isvol (st_tree s) ∧ st_panic s = false ∧ rregs P tr (rgs (st_tree s)).
Proof.
  induction 1 as [|tr s E o s' r Hx (I1&I2&I3) HE Ho Hs Hp|tr s E Hx (I1&I2&I3) HE].
  - destruct (rexec_inv P HP sepc w isvol [] init_st) as [K1 K2]; [constructor|]. done.
  - destruct (rstep_regs P HP sepc w isvol E s o s' r HE Ho I1 Hs Hp) as (K1&K2). split_and!; [done|done|]. by econstructor.
  - destruct (rec_StopNil_spec P sepc w isvol E HE s I1) as [(K1&K2&_) _]. split_and!; [done|by rewrite K2|].
    assert (∀ q n, rgs (st_tree (rec_Stop E s KNil)) q n = rgs (st_tree s) q n) as K3 by (intros; by eapply rec_StopNil_rgs).
    clear - I3 K3. set (g := rgs (st_tree (rec_Stop E s KNil))) in *. clearbody g.
    destruct I3 as [h H0|tr h o r h' H1 H2].
    + apply rregs_init. intros p n. by rewrite K3.
    + eapply rregs_step; [exact H1|]. destruct o as [p isrec n e|n|ev p]; cbn [rreg_after] in *.
      * destruct H2 as [A B]. split; [intros q m Hne; by rewrite K3, A|]. by rewrite K3.
      * intros q m. by rewrite K3.
      * done.
Qed.
(** The same where the OS has recursive watches. *)
Theorem C82_rec_delivery tr s E ei d c n :
  rexec0 tr s → all_ok tr → renv E → rreported ei d c → unmodified P ei →
  rec_offered E s ei (KUser n) = deliveries P (asked P tr) n (needs P ei) d c.
Proof.
  intros Hx Hok HE Hrep Hmod. destruct (rexec0_inv _ _ Hx) as (Ht&_&Hg).
  rewrite (rec_offered_deliveries P HP HR sepc w isvol E s ei d c n) by done.
  apply deliveries_ext. intros q _. by eapply rregs_asked.
Qed.
Theorem C82_rec_nothing_changes tr s E E' ei d c n :
  rexec0 tr s → renv E → renv E' → rreported ei d c →
  rec_offered E' (rec_Stop E s KNil) ei (KUser n) = rec_offered E' s ei (KUser n).
Proof.
  intros Hx HE HE' Hrep. destruct (rexec0_inv _ _ Hx) as (Ht&_&_).
  destruct (rec_StopNil_spec P sepc w isvol E HE s Ht) as [(Ht'&_&Hk) _].
  destruct (rec_offered_hits P HP HR sepc w isvol E' s ei d c n HE' Ht Hrep) as [-> _].
  destruct (rec_offered_hits P HP HR sepc w isvol E' _ ei d c n HE' Ht' Hrep) as [-> _].
  destruct Hrep as (_&_&Hd&Hc&_). assert ([] ∉ d) as Hdp by apply Hd.
  assert (∀ m q, [] ∉ q → hit P (st_tree (rec_Stop E s KNil)) n m q = hit P (st_tree s) n m q) as Hh.
  { intros m q Hq. unfold hit. by rewrite Hk. }
  assert ([] ∉ d ++ [c]) as Hdc by (intros [?|K%elem_of_list_singleton]%elem_of_app; done).
  rewrite (Hh _ d Hdp), (Hh _ (d ++ [c]) Hdc). f_equal. f_equal.
  apply nsum_ext. intros k _. apply Hh. by apply take_plain.
Qed.
Theorem C82_rec_no_panic tr s : rexec0 tr s → st_panic s = false.
Proof. intros Hx. by destruct (rexec0_inv _ _ Hx) as (_&?&_). Qed.
End rec.

(** ** Concrete cases *)
Local Notation C := (Create linux).
Local Notation W := (Write linux).
Local Notation R := (Remove linux).
(** A history with Stop(nil) after each of its calls. *)
Fixpoint nrun0 (s : st) (l : list (env * nop)) : list (nop * result) * st :=
  match l with
  | [] => ([], s)
  | (E, o) :: l => let sr := nstep slash E s o in let x := nrun0 (nr_Stop E sr.1 KNil) l in ((o, sr.2) :: x.1, x.2)
  end.
Lemma nrun0_ok P l : ∀ tr s,
  nexec0 P slash tr s → Forall (λ x, nenv P slash x.1 ∧ nop_ok P slash x.2) l →
  nexec0 P slash (tr ++ (nrun0 s l).1) (nrun0 s l).2.
Proof.
  induction l as [|[E o] l IH]; intros tr s Hx Hl; [by rewrite app_nil_r|].
  apply Forall_cons_1 in Hl as [[HE Ho] Hl]. cbn [nrun0 fst snd] in *. rewrite cons_middle, app_assoc. apply IH; [|done].
  apply n0_stop; [|done]. eapply n0_step; [done|done|done|]. by destruct (nstep slash E s o).
Qed.
Local Ltac ops := repeat (apply Forall_cons; split; [split; [apply E0_ok|apply nop_okb_ok; by vm_compute]|]); apply Forall_nil; done.
Example C82_ex :
  nexec0 linux slash (nrun0 init_st ops1).1 (nrun0 init_st ops1).2 ∧ (nrun0 init_st ops1).1 = tr1 ∧
  reported linux slash (evt W "/a/b/f") (pth "a/b") (b "f") ∧
  offered E0 (nrun0 init_st ops1).2 (evt W "/a/b/f") (KUser 1) = 1%nat ∧
  offered E0 (nrun0 init_st ops1).2 (evt W "/x/f") (KUser 3) = 0%nat.
Proof.
  split_and!; [apply (nrun0_ok linux ops1 []); [apply n0_init|unfold ops1; ops]|by vm_compute|apply reported_linux; by vm_compute|by vm_compute..].
Qed.
(** The calls Stop(nil) makes after C20's history, and what is watched then. *)
Example C82_calls_ex :
  fexec linux slash tr1 D0 s1 ∧ in_force linux tr1 (pth "a") 1 (C .| W) ∧ reliable E0 ∧
  st_log (nr_Stop E0 s1 KNil) =
    st_log s1 ++ [(WRewatch (b "/a") 0 (C .| W), true); (WRewatch (b "/a/b") 0 (C .| W .| R), true)] ∧
  os_watches (st_log (nr_Stop E0 s1 KNil)) !! b "/a/b" = Some (C .| W .| R, false).
Proof. split_and!; [apply C20_ex|apply C20_ex|done|by vm_compute..]. Qed.
Example C82_rec_ex :
  let s := rec_Stop L (at_end ops30) KNil in
  rexec0 fsevents slash false novol (trace_of ops30) s ∧ all_ok (trace_of ops30) ∧
  rreported fsevents slash false novol (mevt (Write fsevents) "/a/b/c/f") (pth "a/b/c") (b "f") ∧ unmodified fsevents (mevt (Write fsevents) "/a/b/c/f") ∧
  rec_offered L s (mevt (Write fsevents) "/a/b/c/f") (KUser 1) = 1%nat ∧ rec_offered L s (mevt (Write fsevents) "/a/b/f") (KUser 2) = 1%nat.
Proof.
  destruct C30_ex as (Hx&Hok&Hrep&Hm&_). cbv zeta. split_and!; [|done|done|done|by vm_compute..].
  apply r0_stop; [|by apply menv_ok]. clear - Hx. induction Hx as [|tr s E o s' r Hx IH HE Ho Hs Hp]; [apply r0_init|by eapply r0_step].
Qed.

(** ** Refutations *)
(** The watcher is told that nothing was watched, against its documented contract. *)
Theorem C82_contract_refuted :
  let s := (nstep slash E0 init_st (NWatch (pth "a") false 1 C)).1 in
  nexec_where linux slash os_good [(NWatch (pth "a") false 1 C, ROk)] s ∧ ¬ log_legal linux (st_log (nr_Stop E0 s KNil)).
Proof.
  cbv zeta. split.
  - apply (nw_step linux slash os_good [] init_st E0 (NWatch (pth "a") false 1 C)); [constructor|apply E0_ok|apply nop_okb_ok; by vm_compute|done|by vm_compute].
  - intros H. destruct (H [(WWatch (b "/a") C, true)] (WRewatch (b "/a") 0 C) true []) as [K _]; [by vm_compute|]. by vm_compute in K.
Qed.
(** Channel 2 gets Write on /a.  A recursive Watch on /a for Remove fails because /a/b
    cannot be read.  Then Stop(nil) is called.  Then channel 3 asks for Remove on /a and
    is told that it succeeded, but the OS is not asked to report it; without the
    Stop(nil) it would be. *)
Definition E0unreadable : env :=
  Env linux slash (λ _, []) allok (e_ord E0) (e_word E0) (λ i p, if bool_decide (p = b "/a/b") then None else e_readdir E0 i p) (e_fuel E0).
Lemma E0unreadable_ok : nenv linux slash E0unreadable.
Proof.
  destruct (E0_ok allok) as [_ _ _ [H1 H2 H3]]. split; [done|done|done|]. split; [exact H1|exact H2|].
  intros n d l. unfold E0unreadable. cbn [e_readdir e_sep]. case_bool_decide; [done|]. apply H3.
Qed.
Theorem C82_then_watch_refuted :
  let s2 := (nstep slash E0 init_st (NWatch (pth "a") false 2 W)).1 in
  let f := nstep slash E0unreadable s2 (NWatch (pth "a") true 1 R) in
  let x := nstep slash E0 (nr_Stop E0 f.1 KNil) (NWatch (pth "a") false 3 R) in
  let y := nstep slash E0 f.1 (NWatch (pth "a") false 3 R) in
  nenv linux slash E0unreadable ∧ f.2 = RErr ∧
  x.2 = ROk ∧ os_watches (st_log x.1) !! b "/a" = Some (C .| W, false) ∧
  y.2 = ROk ∧ os_watches (st_log y.1) !! b "/a" = Some (C .| R .| W, false).
Proof. cbv zeta. split; [apply E0unreadable_ok|by vm_compute]. Qed.

Print Assumptions C82_delivery.
Print Assumptions C82_delivery_always.
Print Assumptions C82_no_panic.
Print Assumptions C82_nothing_changes.
Print Assumptions C82_calls.
Print Assumptions C82_still_registered.
Print Assumptions C82_still_covered.
Print Assumptions C82_rec_delivery.
Print Assumptions C82_rec_nothing_changes.
Print Assumptions C82_rec_no_panic.
Print Assumptions C82_contract_refuted.
Print Assumptions C82_then_watch_refuted.
