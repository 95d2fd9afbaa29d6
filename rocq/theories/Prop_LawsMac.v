(** * Property theorems C86 (continued): macOS and Windows, calls that do nothing *)
From Verif Require Import Base Event Watchpoint WatchpointFacts Paths PathsFacts Loop LoopFacts Node NodeFacts NonRec Rec Clean SpecClean CleanFacts
  SpecTree SpecNonRec SpecOS SpecRec RecFacts RecTidy RecOS RecOrder RecOSStop RecStep RecWatches RecRun RecLawsFacts
  Prop_Basics Prop_Rec Prop_RecOS Prop_Clean Api SpecApi ApiFacts Prop_Api SpecLaws SpecMacApi Prop_MacApi.
From Verif Require Prop_LinuxApi.
Local Open Scope N_scope.

(** ** Operations of the tree, macOS and Windows *)
Section tree.
Context (P : platform) (HP : platform_ok P) (sepc : ascii) (w : bool) (isvol : str → Prop).
Notation renv := (renv P sepc w isvol).
Notation rpath := (rpath sepc w isvol).
Notation oexec := (oexec P sepc w isvol).
Notation rexec := (rexec P sepc w isvol).
Lemma regs_rureg t tr p n : [] ∉ p → (∀ p n, rgs t p n = asked P tr p n) → rureg t p n = asked P tr p n.
Proof. intros Hp Ha. by rewrite <-Ha, rgs_plain. Qed.
(** Orderly histories: a Watch for events the channel has asked for on the path leaves
    everything as it is, calls no watcher and succeeds, whatever the environment. *)
Theorem C86_tree_again tr s E p isrec n e :
  oexec tr s → renv E → rpath p → e ≠ 0 → incl_ev (e .| rec_bit P isrec) (asked P tr p n) →
  rec_Watch E s (nameof sepc w p) isrec (KUser n) e = (s, ROk).
Proof.
  intros H HE Hp He Hi. pose proof (oexec_sound P HP sepc w isvol true tr s H) as (Hx&Hok&[Ht _ _]).
  eapply (rec_again P HP sepc w isvol true E HE s _ p isrec n e Ht Hp He).
  by rewrite (regs_rureg _ tr) by (apply Hp || by apply (rexec_asked P HP sepc w isvol)).
Qed.
(** Histories of successful Watch calls, orderly or not. *)
Theorem C86_tree_again_watches tr s E p isrec n e :
  rexec tr s → watches tr → renv E → rpath p → e ≠ 0 → incl_ev (e .| rec_bit P isrec) (asked P tr p n) →
  rec_Watch E s (nameof sepc w p) isrec (KUser n) e = (s, ROk).
Proof.
  intros Hx Hw HE Hp He Hi. pose proof (watches_tended P HP sepc w isvol tr s Hx Hw) as [[Ht _ _] _].
  eapply (rec_again P HP sepc w isvol false E HE s _ p isrec n e Ht Hp He).
  rewrite (regs_rureg _ tr) by (apply Hp || by apply (rexec_asked P HP sepc w isvol tr s Hx (watches_ok _ Hw))). done.
Qed.
(** Orderly histories: Stop with a channel that has nothing registered changes nothing
    and calls no watcher. *)
Theorem C86_tree_stop_idle tr s E n :
  oexec tr s → renv E → (∀ p, asked P tr p n = 0) →
  let s' := rec_Stop E s (KUser n) in st_tree s' = st_tree s ∧ st_log s' = st_log s ∧ st_panic s' = st_panic s.
Proof.
  intros H HE Hn. pose proof (oexec_sound P HP sepc w isvol true tr s H) as (Hx&Hok&[Ht _ _]).
  apply (rec_stop_idle P HP sepc w isvol true E HE s _ n Ht). intros p Hp.
  rewrite (regs_rureg _ tr) by (done || by apply (rexec_asked P HP sepc w isvol)). apply Hn.
Qed.
Theorem C86_tree_stop_idle_watches tr s E n :
  rexec tr s → watches tr → renv E → (∀ p, asked P tr p n = 0) →
  let s' := rec_Stop E s (KUser n) in st_tree s' = st_tree s ∧ st_log s' = st_log s ∧ st_panic s' = st_panic s.
Proof.
  intros Hx Hw HE Hn. pose proof (watches_tended P HP sepc w isvol tr s Hx Hw) as [[Ht _ _] _].
  apply (rec_stop_idle P HP sepc w isvol false E HE s _ n Ht). intros p Hp.
  rewrite (regs_rureg _ tr) by (done || by apply (rexec_asked P HP sepc w isvol tr s Hx (watches_ok _ Hw))). apply Hn.
Qed.
End tree.

(** ** Calls of the API, macOS *)
Notation macenv := (renv fsevents slash false noroot).
(** Histories as in C74. *)
Theorem C86_again_silent_macos tr s E fs cwd p n ev isrec q s' r :
  mlexec tr s → macenv E → acall_rec_ok fsevents (AWatch fs cwd p (Some n) ev) →
  denotes fs cwd p isrec q → watched fsevents tr isrec n q ev → (∃ e i, e ∈ ev ∧ has e i) →
  astep rec_api E s (AWatch fs cwd p (Some n) ev) = (s', ORet r) → s' = s ∧ r = ROk.
Proof.
  intros Hx HE Hok Hd (tr1&tr2&fs'&cwd'&p'&ev'&isrec'&Ha&Hd'&Hrec&Hne'&Hev&Hk) (e0&i0&He0&Hi0) Hs.
  assert (ev ≠ []) as Hne by (intros ->; by apply elem_of_nil in He0).
  destruct (mlexec_mexec tr s Hx) as (trs&Ht&Ho).
  destruct (rec_trans fsevents E s _ _ _ HE (λ _, Hok) Hs) as [[Htr _]|(o'&r'&Htr&Hro&Hst)].
  { inversion Htr as [? ? Hv| | | |]; subst. by destruct ev. }
  inversion Htr as [|? ? ? ? ? ?|? ? ? ? ? ? isrec0 ph _ Hd0| |]; subst. destruct (denotes_det _ _ _ _ _ _ _ Hd0 Hd) as [-> ->].
  assert (q ≠ []) as Hq by (intros ->; by destruct Hok as [_ Hno]; apply (Hno isrec)).
  destruct Hro as (Hrp&_&_). destruct q as [|c q]; [done|]. cbn [nodeof] in *. clear Hq. set (q' := c :: q) in *.
  cbn [rstep] in Hst. rewrite (C86_tree_again fsevents fsevents_ok slash false noroot (concat trs)) in Hst; try done.
  { by injection Hst as <- <-. }
  - intros Hz. assert (has (joinevents fsevents ev) i0) as H0 by (apply C01_union; eauto). rewrite Hz in H0. by apply has_0 in H0.
  - intros i Hi. apply (asked_sub fsevents (tr1 ++ (AWatch fs' cwd' p' (Some n) ev', ORet ROk) :: tr2) trs n q' i Ht);
      [done|apply Hrp|]. apply has_lor in Hi as [Hi|Hi].
    + left. apply C01_union in Hi as (x&Hx1&Hx2); [|done]. destruct (Hev x i Hx1 Hx2) as (x'&Hx1'&Hx2').
      eexists tr1, tr2, fs', cwd', p', isrec', ev'. by split_and!; eauto.
    + right. destruct isrec; [|by apply has_0 in Hi]. split; [done|]. rewrite (Hrec eq_refl) in Hd'.
      eexists tr1, tr2, fs', cwd', p', ev'. by split_and!.
Qed.
Theorem C86_stop_idle_macos tr s E n :
  mlexec tr s → macenv E → idle tr n →
  let s' := api_Stop rec_api E s n in st_tree s' = st_tree s ∧ st_log s' = st_log s ∧ st_panic s' = st_panic s.
Proof.
  intros Hx HE Hid. destruct (mlexec_mexec tr s Hx) as (trs&Ht&Ho).
  apply (C86_tree_stop_idle fsevents fsevents_ok slash false noroot (concat trs) s E n Ho HE).
  intros p. destruct (decide (asked fsevents (concat trs) p n = 0)) as [|Hne]; [done|]. exfalso.
  pose proof (oexec_paths _ _ _ _ Ho Hne) as (Hp1&_&Hp2). apply nonzero_bit in Hne as [i Hi].
  apply (asked_sub fsevents tr trs n p i Ht Hp1 Hp2) in Hi.
  destruct Hi as [(tr1&tr2&fs&cwd&x&isrec&ev&Heq&_&_&Hk)|[_ (tr1&tr2&fs&cwd&x&ev&Heq&_&_&Hk)]];
    destruct (Hid _ _ _ _ _ _ _ Heq) as [r' Hr']; by apply (proj1 Hk r').
Qed.

(** ** Instances *)
(** After the calls of [C74_hyps], in which channel 2 was stopped. *)
Definition againM : acall := AWatch fs1 None (b "/d/e/...") (Some 1%positive) [Write fsevents].
Definition Lbad : env := RecRun.menv (λ _ _, false).
Lemma againM_den : denotes fs1 None (b "/d/e/...") true [b "d"; b "e"].
Proof.
  apply Prop_LinuxApi.clean_denotes; [apply fs1_ok|apply fs1_ok|by intros w [=]|done|apply (bool_decide_unpack _); by vm_compute|apply (bool_decide_unpack _); by vm_compute|by vm_compute].
Qed.
(** Channel 1 names the directory by its own path, for one of its events; the watcher
    would refuse.  Another event would have called it. *)
Example C86_ex_again_macos :
  mlexec atrM sM ∧ macenv Lbad ∧ acall_rec_ok fsevents againM ∧ watched fsevents atrM true 1 [b "d"; b "e"] [Write fsevents] ∧
  (∃ e i, e ∈ [Write fsevents] ∧ has e i) ∧
  (astep rec_api Lbad sM (AWatch fs1 None (b "/d/e/...") (Some 1%positive) [Rename fsevents])).2 = ORet RErr.
Proof.
  split_and!.
  - apply mlexecM.
  - apply menv_ok.
  - split; [apply acall_okb_ok; [apply fs1_ok|apply fs1_ok|by intros w [=]|by vm_compute]|].
    intros isrec Hd. by destruct (denotes_det _ _ _ _ _ _ _ Hd againM_den).
  - eexists [], _, fs1, (Some (b "/d")), (b "abs/..."), [Create fsevents; Write fsevents], true.
    split_and!; [done|apply Prop_LinuxApi.fs1_den1|done|done| |].
    + intros e i ->%elem_of_list_singleton Hi. exists (Write fsevents). split; [right; left|done].
    + unfold atrM, atr, calls, outcomes1. cbn [zip zip_with app]. split; [intros r Hr|intros p r Hr]; rewrite !elem_of_cons, elem_of_nil in Hr; naive_solver.
  - assert (Write fsevents ≠ 0) as [i Hi]%nonzero_bit by done. exists (Write fsevents), i. split; [left|done].
  - by vm_compute.
Qed.
(** Channel 2 is idle; Stop(1) would have called the watcher. *)
Example C86_ex_stop_macos : idle atrM 2 ∧ st_log (api_Stop rec_api L sM 2) = st_log sM ∧ st_log (api_Stop rec_api L sM 1) ≠ st_log sM.
Proof.
  split_and!; [|by vm_compute|].
  - intros tr1 fs cwd p events r tr2 Heq. exists (ORet ROk). unfold atrM in Heq.
    destruct tr2 as [|y tr2 _] using rev_ind; [apply app_inj_tail in Heq as [_ Heq]; done|].
    rewrite app_comm_cons, app_assoc in Heq. apply app_inj_tail in Heq as [_ <-]. apply elem_of_app. right. left.
  - intros Heq. apply (f_equal length) in Heq. by vm_compute in Heq.
Qed.

Print Assumptions C86_tree_again.
Print Assumptions C86_tree_again_watches.
Print Assumptions C86_tree_stop_idle.
Print Assumptions C86_tree_stop_idle_watches.
Print Assumptions C86_again_silent_macos.
Print Assumptions C86_stop_idle_macos.
