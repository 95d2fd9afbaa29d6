(** * Property theorems C53-C55: the goroutines around a tree, under every schedule *)
From Verif Require Import Base Event Watchpoint WatchpointFacts Paths PathsFacts Loop LoopFacts
  Node NodeFacts SpecTree WalkFacts RootFacts NonRec NonRecWp Rec SpecNonRec SpecNonRecOS NonRecDisp NonRecStop SpecOS SpecRec
  NonRecFacts NonRecOps NonRecReg NonRecStep NonRecRun RecFacts RecReg RecStop RecDisp RecStep RecRun
  Prop_Basics Prop_NonRec Prop_Rec TreeConc SpecTreeConc TreeConcFacts.
Local Open Scope N_scope.

(** The calls and reports considered, as in the theorems on histories: calls with clean
    absolute paths, reports with such a path that carry at least one event. *)
Definition ncall_ok (P : platform) (sepc : ascii) (o : nop) : Prop := is_call o ∧ nop_ok P sepc o.
Definition nreport_ok (P : platform) (sepc : ascii) (ei : event_info) : Prop :=
  ei_event ei ≠ 0 ∧ disj_ev (ei_event ei) (omit P) ∧ ∃ p, gpath sepc p ∧ ei_path ei = render sepc p.
Definition nrun (P : platform) (sepc : ascii) := run (nonrec_ops sepc) (nenv P sepc) (ncall_ok P sepc) (nreport_ok P sepc).
Definition nstep_c (P : platform) (sepc : ascii) := step (nonrec_ops sepc) (nenv P sepc) (ncall_ok P sepc) (nreport_ok P sepc).
Definition nrun1 (P : platform) (sepc : ascii) :=
  one_by_one (nonrec_ops sepc) (nenv P sepc) (ncall_ok P sepc) (nreport_ok P sepc).

Section nonrec.
Context (P : platform) (HP : platform_ok P) (HW : windows P = false) (sepc : ascii).
Lemma offered_elem E s ei k : offered E s ei k = 0%nat → k ∉ (nr_dispatch E (st_tree s) ei).1.
Proof.
  unfold offered. intros H Hin. apply length_zero_iff_nil in H.
  assert (k ∈ filter (k =.) (nr_dispatch E (st_tree s) ei).1) as Hf by (by apply elem_of_list_filter).
  rewrite H in Hf. by apply elem_of_nil in Hf.
Qed.
Lemma outstanding_em tr n : outstanding tr n ∨ ¬ outstanding tr n.
Proof.
  induction tr as [|[o r] tr IH] using rev_ind; [right; intros (t1&?&?&?&?&?&K&_); by destruct t1|].
  rewrite (outstanding_snoc linux linux_ok). destruct o as [p isrec m e|m|ev p]; [| |done];
    destruct (decide (n = m)) as [->|Hne]; destruct IH as [H|H].
  - left. by left.
  - left. by left.
  - left. by right.
  - right. by intros [?|?].
  - right. by intros [? _].
  - right. by intros [? _].
  - left. done.
  - right. by intros [_ ?].
Qed.
Lemma nonrec_spec : tree_spec (nonrec_ops sepc) (nenv P sepc) (ncall_ok P sepc) (nreport_ok P sepc) (nexec P sepc) P.
Proof.
  split; [done|constructor|..].
  - intros tr s E o s' r Hx HE [_ Ho] Hs _. by econstructor.
  - intros tr s E ei Hx HE (_&_&p&Hp&Heq) _. exists [(NEvent (ei_event ei) p, ROk)]. split; [right; eauto|].
    econstructor; [done|done|done|]. simpl. f_equal. destruct ei as [ev q isd ft]. simpl in Heq. by subst q.
  - intros tr s E ei n Hx HE (Hev&Hom&p&Hp&Heq) Hin. destruct p as [|c d _] using rev_ind; [by destruct Hp|].
    destruct Hp as (_&Hok&Hne). apply Forall_app in Hok as [Hd [Hc _]%Forall_cons_1].
    destruct (decide (d = [])) as [->|Hd0].
    { exfalso. simpl in Hin. rewrite (C29_top_level_refuted P sepc E (st_tree s) ei c HE Hc Heq) in Hin.
      by apply elem_of_nil in Hin. }
    destruct (outstanding_em tr n) as [|Hno]; [done|]. exfalso.
    eapply offered_elem; [|exact Hin]. eapply (C18_stopped_silent P HP HW sepc tr s E ei d c n); try done.
    split_and!; try done. split_and!; [done|done|]. intros K. apply Hne, elem_of_app. left.
    destruct d as [|x d _] using rev_ind; [done|]. rewrite (NonRecOps.removelast_snoc) in K. apply elem_of_app. by left.
Qed.
End nonrec.

Section props.
Context (P : platform) (HP : platform_ok P) (HW : windows P = false) (sepc : ascii).
Notation nrun := (nrun P sepc).
Notation nstep := (nstep_c P sepc).

(** ** C53: Stop is a barrier *)
(** Whatever any number of goroutines do: if a channel is offered an event after a call
    of Stop for it has returned, then there is a Watch for it that started before the
    event was offered and had not returned when that Stop was called. *)
Theorem C53_barrier l1 l2 l3 l4 i r j n ei b c :
  nrun (l1 ++ LCall i (NStop n) :: l2 ++ LRet i (NStop n) r :: l3 ++ LOffer j n ei b :: l4) c →
  ∃ k, started_watch (l1 ++ LCall i (NStop n) :: l2 ++ LRet i (NStop n) r :: l3) k n ∧ ¬ returned l1 k.
Proof. eapply stop_barrier. by apply nonrec_spec. Qed.

(** ** C54: no deadlock *)
(** As long as a call has not returned, a report is not dispatched or a directory event
    not processed, some goroutine can take a step. *)
Definition anyenv : env := Env P sepc (λ _, []) (λ _ _, true) (λ _ l, l) (λ _ l, l) (λ _ _, None) 0.
Lemma anyenv_ok : nenv P sepc anyenv.
Proof. split; [done|done|done|]. split; [done|done|done]. Qed.
Lemma anyenv_call tr s o : nexec P sepc tr s → ncall_ok P sepc o → st_panic (t_call (nonrec_ops sepc) anyenv s o).1 = false.
Proof.
  intros Hx [_ Ho]. destruct (t_call (nonrec_ops sepc) anyenv s o) as [s' r] eqn:Es.
  eapply (C28_no_panic P HP sepc (tr ++ [(o, r)])). econstructor; [done|apply anyenv_ok|done|done].
Qed.
Lemma anyenv_int tr s ei :
  nexec P sepc tr s → nreport_ok P sepc ei → st_panic (t_int (nonrec_ops sepc) anyenv s ei) = false.
Proof.
  intros Hx (_&_&p&Hp&Heq). eapply (C28_no_panic P HP sepc (tr ++ [(NEvent (ei_event ei) p, ROk)])).
  econstructor; [done|apply anyenv_ok|done|]. simpl. f_equal. destruct ei as [ev q isd ft]. simpl in Heq. by subst q.
Qed.
Theorem C54_progress ls c : nrun ls c → ¬ quiescent c → ∃ l c', work l ∧ nstep c l c'.
Proof.
  intros Hr. eapply (progress _ _ _ _ _ _ (nonrec_spec P HP HW sepc) anyenv anyenv_ok anyenv_int anyenv_call). exact Hr.
Qed.
(** Without new calls and reports they cannot go on for ever, whatever the schedule;
    hence every schedule that lets a goroutine run as long as one can comes to an end, *)
Theorem C54_no_endless_work ls (f : nat → cfg) : nrun ls (f 0%nat) → ¬ ∀ k, ∃ l, work l ∧ nstep (f k) l (f (S k)).
Proof. intros Hr. by eapply no_endless_work. Qed.
(** and then every call has returned. *)
Theorem C54_returns ls c i o : nrun ls c → quiescent c → LCall i o ∈ ls → ∃ r, LRet i o r ∈ ls.
Proof.
  intros Hr (Hq&_) Hin. destruct (run_live _ _ _ _ _ _ Hr i o Hin) as [(pc&Hi)|?]; [|done].
  by rewrite Hq, lookup_empty in Hi.
Qed.

(** ** C55: order of delivery *)
(** The claim holds in runs in which the goroutine of each event makes its sends before
    the next event is taken: every channel is offered, and takes, the events in the order
    of the reports. *)
Theorem C55_one_by_one_partial ls c n :
  nrun1 P sepc ls c → in_order (offers n ls) (reports ls) ∧ in_order (sent n ls) (reports ls).
Proof. intros Hr. rewrite offers_picked, sent_picked. split; by eapply picked_in_order. Qed.
End props.

(** ** The tree with recursive watches *)
Section recursive.
Context (P : platform) (HP : platform_ok P) (HR : windows P = true → P = readdcw).
Context (sepc : ascii) (w : bool) (isvol : str → Prop).
Definition rreport_ok (ei : event_info) : Prop := ∃ d c, rreported P sepc w isvol ei d c.
Notation rrun := (run (rec_ops sepc w) (renv P sepc w isvol) (rop_ok P sepc w isvol) rreport_ok).
Notation rstep_c := (step (rec_ops sepc w) (renv P sepc w isvol) (rop_ok P sepc w isvol) rreport_ok).
Lemma rexec_no_panic tr s : rexec P sepc w isvol tr s → st_panic s = false.
Proof. by destruct 1. Qed.
Lemma rec_spec : tree_spec (rec_ops sepc w) (renv P sepc w isvol) (rop_ok P sepc w isvol) rreport_ok (rexec P sepc w isvol) P.
Proof.
  split; [done|constructor|..].
  - intros tr s E o s' r Hx HE Ho Hs Hp. by econstructor.
  - intros tr s E ei Hx HE _ _. exists []. split; [by left|]. by rewrite app_nil_r.
  - intros tr s E ei n Hx HE (d&c&Hrep) Hin.
    destruct (outstanding_em tr n) as [|Hno]; [done|]. exfalso.
    pose proof (C31_stopped_silent P HP HR sepc w isvol tr s E ei d c n Hx Hno HE Hrep) as H.
    unfold rec_offered in H. apply length_zero_iff_nil in H.
    assert (KUser n ∈ filter (KUser n =.) (rec_dispatch E (st_tree s) ei)) as Hf by (by apply elem_of_list_filter).
    rewrite H in Hf. by apply elem_of_nil in Hf.
Qed.
(** *** C53 *)
Theorem C53_barrier_recursive l1 l2 l3 l4 i r j n ei b c :
  rrun (l1 ++ LCall i (NStop n) :: l2 ++ LRet i (NStop n) r :: l3 ++ LOffer j n ei b :: l4) c →
  ∃ k, started_watch (l1 ++ LCall i (NStop n) :: l2 ++ LRet i (NStop n) r :: l3) k n ∧ ¬ returned l1 k.
Proof. eapply stop_barrier. apply rec_spec. Qed.
(** *** C54: a goroutine can take a step unless the call that holds the lock panics, in
    whatever environment it is run. *)
Theorem C54_recursive ls c E :
  rrun ls c → renv P sepc w isvol E → ¬ quiescent c →
  (∃ i o, c_thr c !! i = Some (TCall o WHold) ∧ st_panic (rstep sepc w E (c_st c) o).1 = true) ∨
  ∃ l c', work l ∧ rstep_c c l c'.
Proof.
  intros Hr HE Hq. eapply (progress_or _ _ _ _ _ _ rec_spec E HE); [|done..].
  intros tr s ei Hx _. simpl. by eapply rexec_no_panic.
Qed.
(** *** C55 *)
Theorem C55_recursive_partial ls c n :
  one_by_one (rec_ops sepc w) (renv P sepc w isvol) (rop_ok P sepc w isvol) rreport_ok ls c →
  in_order (offers n ls) (reports ls) ∧ in_order (sent n ls) (reports ls).
Proof. intros Hr. rewrite offers_picked, sent_picked. split; by eapply picked_in_order. Qed.
End recursive.

(** ** Instances, on Linux *)
Notation crun := (nrun linux slash).
Lemma run_whole_call E ls c o s r :
  nenv linux slash E → crun ls c → c_lock c = None → no_readers c → ncall_ok linux slash o →
  nstep slash E (c_st c) o = (s, r) →
  crun (ls ++ [LCall (c_next c) o; LTau; LTau; LCrit (c_next c) o r; LTau; LRet (c_next c) o r])
    (Cfg s (c_thr c) (S (c_next c)) (c_int c) None (c_q c) (c_rec c)).
Proof.
  intros HE Hr Hl Hn Ho Hs. eapply TreeConcFacts.run_whole_call; [exact HE|exact Hr|exact Hl|exact Hn|exact Ho|exact Hs|].
  destruct (run_lin _ _ _ _ _ _ (nonrec_spec linux linux_ok eq_refl slash) _ _ Hr) as (tr&_&Hx).
  eapply (C28_no_panic linux linux_ok slash (tr ++ [(o, r)])). econstructor; [exact Hx|exact HE|by destruct Ho|exact Hs].
Qed.
Lemma run_report ls c ei :
  crun ls c → nreport_ok linux slash ei → (length (c_q c) < buffer)%nat → crun (ls ++ [LReport ei]) (set_q c (c_q c ++ [ei])).
Proof. apply TreeConcFacts.run_report. Qed.
Lemma run_take ls c ei q :
  crun ls c → c_q c = ei :: q → crun (ls ++ [LTake (c_next c) ei]) (new_thr (set_q c q) (TEvt ei)).
Proof. apply TreeConcFacts.run_take. Qed.
Lemma run_deliver E ls c i ei n fwd :
  nenv linux slash E → crun ls c → c_lock c = None → c_thr c !! i = Some (TEvt ei) → nr_dispatch E (st_tree (c_st c)) ei = ([KUser n], fwd) →
  crun (ls ++ [LTau; LOffer i n ei true; LTau]) (if fwd then set_thr c i (TFwd ei) else end_thr c i).
Proof. apply (TreeConcFacts.run_deliver (nonrec_ops slash)). Qed.
Definition wt : nop := NWatch (pth "a") true 1 (Create linux .| Write linux).
Definition sw : st := (nstep slash E0 init_st wt).1.
Definition ss : st := (nstep slash E0 sw (NStop 1)).1.
Definition sww : st := (nstep slash E0 ss wt).1.
Definition e1 : event_info := evt (Write linux) "/a/b/f".
Definition e2 : event_info := evt (Write linux) "/a/b/g".
Definition e3 : event_info := EI (Create linux) (b "/a/b") (Some true) fTypeDirectory.
Local Ltac dec := apply (bool_decide_unpack _); by vm_compute.
Lemma wt_ok : ncall_ok linux slash wt.
Proof. split; [done|]. apply nop_okb_ok. by vm_compute. Qed.
Lemma stop_ok n : ncall_ok linux slash (NStop n).
Proof. done. Qed.
Lemma report_ok ei p :
  ei_event ei ≠ 0 → ei_event ei .& omit linux = 0 → bool_decide (p ≠ []) && bool_decide (Forall (comp_ok slash) p) && bool_decide ([] ∉ p) = true →
  ei_path ei = render slash p → nreport_ok linux slash ei.
Proof.
  rewrite !andb_true_iff, !bool_decide_eq_true. intros H1 H2 [[H3 H4] H5] H6. split_and!; [done|by apply land_zero_disj|].
  by exists p.
Qed.
Lemma e1_ok : nreport_ok linux slash e1.
Proof. apply (report_ok _ (pth "a/b/f")); by vm_compute. Qed.
Lemma e2_ok : nreport_ok linux slash e2.
Proof. apply (report_ok _ (pth "a/b/g")); by vm_compute. Qed.
Lemma e3_ok : nreport_ok linux slash e3.
Proof. apply (report_ok _ (pth "a/b")); by vm_compute. Qed.
Lemma pair_snd {A B} (x : A * B) y : x.2 = y → x = (x.1, y).
Proof. destruct x. simpl. by intros ->. Qed.
Lemma wt_sw : nstep slash E0 init_st wt = (sw, ROk).
Proof. assert ((nstep slash E0 init_st wt).2 = ROk) as H by (by vm_compute). unfold sw. by rewrite <-(pair_snd _ _ H). Qed.
Lemma stop_ss : nstep slash E0 sw (NStop 1) = (ss, ROk).
Proof. assert ((nstep slash E0 sw (NStop 1)).2 = ROk) as H by (by vm_compute). unfold ss. by rewrite <-(pair_snd _ _ H). Qed.
Lemma wt_sww : nstep slash E0 ss wt = (sww, ROk).
Proof. assert ((nstep slash E0 ss wt).2 = ROk) as H by (by vm_compute). unfold sww. by rewrite <-(pair_snd _ _ H). Qed.
Lemma sw_e1 : nr_dispatch E0 (st_tree sw) e1 = ([KUser 1], false).
Proof. by vm_compute. Qed.
Lemma sw_e2 : nr_dispatch E0 (st_tree sw) e2 = ([KUser 1], false).
Proof. by vm_compute. Qed.
Lemma sw_e3 : nr_dispatch E0 (st_tree sw) e3 = ([KUser 1], true).
Proof. by vm_compute. Qed.
Lemma sww_e1 : nr_dispatch E0 (st_tree sww) e1 = ([KUser 1], false).
Proof. by vm_compute. Qed.
Lemma E0_env : nenv linux slash E0.
Proof. apply E0_ok. Qed.
Opaque sw ss sww.
Local Ltac noreaders := let H := fresh in intros ? ? ? ? H; simpl in H;
  repeat first [apply lookup_insert_Some in H as [[? ?]|[? H]]; [congruence|]|apply lookup_delete_Some in H as [? H]|by rewrite lookup_empty in H].
Lemma run_wt : ∃ ls, crun ls (Cfg sw ∅ 1 IRecv None [] []) ∧ ls = [LCall 0 wt; LTau; LTau; LCrit 0 wt ROk; LTau; LRet 0 wt ROk].
Proof.
  eexists. split; [|reflexivity].
  exact (run_whole_call E0 [] cfg0 wt sw ROk E0_env ltac:(constructor) eq_refl ltac:(noreaders) wt_ok wt_sw).
Qed.
(** *** C55: a run in which a channel gets two events in the other order: the goroutine
    of the second is faster. *)
Theorem C55_refuted : ∃ ls c, crun ls c ∧ reports ls = [e1; e2] ∧ sent 1 ls = [e2; e1] ∧ e1 ≠ e2.
Proof.
  destruct run_wt as (ls&Hr&->).
  eapply run_report in Hr; [|exact e1_ok|simpl; unfold buffer; lia].
  eapply run_report in Hr; [|exact e2_ok|simpl; unfold buffer; lia].
  eapply run_take in Hr; [|reflexivity]. eapply run_take in Hr; [|reflexivity].
  eapply (run_deliver E0 _ _ 2 e2 1 false E0_env) in Hr; [|reflexivity|reflexivity|exact sw_e2].
  eapply (run_deliver E0 _ _ 1 e1 1 false E0_env) in Hr; [|reflexivity|reflexivity|exact sw_e1].
  eexists _, _. split_and!; [exact Hr|reflexivity|reflexivity|by vm_compute].
Qed.
(** Two reports dispatched one by one. *)
Lemma run_no_take ls c : crun ls c → (∀ i ei, LTake i ei ∉ ls) → nrun1 linux slash ls c.
Proof.
  induction 1 as [|ls c l c' Hr IH Hs]; intros Hno; [constructor|]. econstructor; [|done|].
  - apply IH. intros i ei Hin. apply (Hno i ei), elem_of_app. by left.
  - intros i ei ->. exfalso. apply (Hno i ei), elem_of_app. right. by left.
Qed.
Local Ltac isidle := let H := fresh in intros ? ? _ ? ?; split; [intros H|intros ? ? H]; simpl in H;
  repeat first [apply lookup_insert_Some in H as [[? ?]|[? H]]; [congruence|]|apply lookup_delete_Some in H as [? H]|by rewrite lookup_empty in H].
Example C55_hyps : ∃ ls c, nrun1 linux slash ls c ∧ reports ls = [e1; e2] ∧ sent 1 ls = [e1; e2].
Proof.
  destruct run_wt as (ls&Hr&->). apply run_no_take in Hr; [|intros i ei Hin; set_solver].
  eapply obo_step in Hr; [|eapply s_report; [exact e1_ok|simpl; unfold buffer; lia]|done].
  eapply obo_step in Hr; [|eapply s_report; [exact e2_ok|simpl; unfold buffer; lia]|done].
  eapply obo_step in Hr; [|eapply s_take; reflexivity|].
  2: isidle.
  eapply obo_step in Hr; [|eapply (s_rlock _ _ _ _ _ 1%nat e1 E0); [reflexivity|done|exact E0_env|exact sw_e1]|done].
  eapply obo_step in Hr; [|eapply (s_offer _ _ _ _ _ 1%nat _ _ _ _ true); reflexivity|done].
  eapply obo_step in Hr; [|eapply (s_runlock _ _ _ _ _ 1%nat); reflexivity|done].
  eapply obo_step in Hr; [|eapply s_take; reflexivity|].
  2: isidle.
  eapply obo_step in Hr; [|eapply (s_rlock _ _ _ _ _ 2%nat e2 E0); [reflexivity|done|exact E0_env|exact sw_e2]|done].
  eapply obo_step in Hr; [|eapply (s_offer _ _ _ _ _ 2%nat _ _ _ _ true); reflexivity|done].
  eexists _, _. split_and!; [exact Hr|reflexivity|reflexivity].
Qed.
(** *** C53: a channel that is watched, stopped and watched again, and offered an event. *)
Example C53_hyps : ∃ l1 l2 l3 l4 c,
  crun (l1 ++ LCall 1 (NStop 1) :: l2 ++ LRet 1 (NStop 1) ROk :: l3 ++ LOffer 3 1 e1 true :: l4) c.
Proof.
  destruct run_wt as (ls&Hr&->).
  eapply (run_whole_call E0 _ _ (NStop 1) ss ROk E0_env) in Hr; [|reflexivity|noreaders|done|exact stop_ss].
  eapply (run_whole_call E0 _ _ wt sww ROk E0_env) in Hr; [|reflexivity|noreaders|exact wt_ok|exact wt_sww].
  eapply run_report in Hr; [|exact e1_ok|simpl; unfold buffer; lia]. eapply run_take in Hr; [|reflexivity].
  eapply (run_deliver E0 _ _ 3 e1 1 false E0_env) in Hr; [|reflexivity|reflexivity|exact sww_e1].
  exists [LCall 0 wt; LTau; LTau; LCrit 0 wt ROk; LTau; LRet 0 wt ROk], [LTau; LTau; LCrit 1 (NStop 1) ROk; LTau],
    [LCall 2 wt; LTau; LTau; LCrit 2 wt ROk; LTau; LRet 2 wt ROk; LReport e1; LTake 3 e1; LTau], [LTau].
  eexists. exact Hr.
Qed.
(** *** C54: the queue for directory events is full, a goroutine waits for room in it, and
    a call of Stop waits for the lock. *)
Lemma run_fill k : (k ≤ buffer)%nat → ∃ ls n, crun ls (Cfg sw ∅ n IRecv None [] (replicate k e3)).
Proof.
  induction k as [|k IH]; intros Hk; [destruct run_wt as (ls&Hr&_); eauto|].
  destruct (IH ltac:(lia)) as (ls&n&Hr).
  eapply run_report in Hr; [|exact e3_ok|simpl; unfold buffer; lia]. eapply run_take in Hr; [|reflexivity].
  eapply (run_deliver E0 _ _ n e3 1 true E0_env) in Hr; [|reflexivity|apply lookup_insert|exact sw_e3].
  eapply run_step in Hr; [|eapply (s_fwd _ _ _ _ _ n); [apply lookup_insert|simpl; rewrite replicate_length; lia]].
  eexists _, (S n).
  match type of Hr with run _ _ _ _ _ ?c' =>
    assert (c' = Cfg sw ∅ (S n) IRecv None [] (replicate (S k) e3)) as Heq end; [|rewrite Heq in Hr; exact Hr].
  unfold end_thr at 1. f_equal.
  - change (delete n (<[n := TFwd e3]> (<[n := TEvt e3]> (∅ : gmap nat thr))) = ∅).
    rewrite delete_insert_delete, delete_insert; [done|apply lookup_empty].
  - change (replicate k e3 ++ [e3] = replicate (S k) e3). by rewrite replicate_S_end.
Qed.
Example C54_hyps : ∃ ls c i j,
  crun ls c ∧ ¬ quiescent c ∧ length (c_rec c) = buffer ∧ c_thr c !! i = Some (TFwd e3) ∧
  c_thr c !! j = Some (TCall (NStop 1) WWant).
Proof.
  destruct (run_fill buffer ltac:(lia)) as (ls&n&Hr).
  eapply run_report in Hr; [|exact e3_ok|simpl; unfold buffer; lia]. eapply run_take in Hr; [|reflexivity].
  eapply (run_deliver E0 _ _ n e3 1 true E0_env) in Hr; [|reflexivity|apply lookup_insert|exact sw_e3].
  eapply run_step in Hr; [|eapply (s_call _ _ _ _ _ (NStop 1)); exact (stop_ok 1)].
  eexists _, _, n, (S n). split; [exact Hr|]. split_and!.
  - intros (Hq&_). apply (f_equal (lookup (S n))) in Hq. rewrite lookup_empty in Hq. revert Hq.
    match goal with |- ?m !! _ = _ → _ => assert (m !! S n = Some (TCall (NStop 1) WWant)) as -> by apply lookup_insert end. done.
  - change (length (replicate buffer e3) = buffer). apply replicate_length.
  - change (<[S n := TCall (NStop 1) WWant]> (<[n := TFwd e3]> (<[n := TEvt e3]> (∅ : gmap nat thr))) !! n = Some (TFwd e3)).
    rewrite lookup_insert_ne by lia. apply lookup_insert.
  - apply lookup_insert.
Qed.
Transparent sw ss sww.

(** *** The same on macOS *)
Notation mrun := (TreeConc.run (rec_ops slash false) (renv fsevents slash false novol) (rop_ok fsevents slash false novol)
  (rreport_ok fsevents slash false novol)).
Definition mw : nop := NWatch (pth "a") true 1 (Create fsevents .| Write fsevents).
Definition me : event_info := mevt (Write fsevents) "/a/b/f".
Definition ms1 : st := (rstep slash false L init_st mw).1.
Definition ms2 : st := (rstep slash false L ms1 (NStop 1)).1.
Definition ms3 : st := (rstep slash false L ms2 mw).1.
Lemma mw_ok : rop_ok fsevents slash false novol mw.
Proof. apply (rop_okb_ok fsevents slash false). by vm_compute. Qed.
Lemma me_ok : rreport_ok fsevents slash false novol me.
Proof. exists (pth "a/b"), (b "f"). apply (rreportedb_ok fsevents slash false); by vm_compute. Qed.
Lemma ms1_eq : rstep slash false L init_st mw = (ms1, ROk).
Proof. assert ((rstep slash false L init_st mw).2 = ROk) as H by (by vm_compute). unfold ms1. by rewrite <-(pair_snd _ _ H). Qed.
Lemma ms2_eq : rstep slash false L ms1 (NStop 1) = (ms2, ROk).
Proof. assert ((rstep slash false L ms1 (NStop 1)).2 = ROk) as H by (by vm_compute). unfold ms2. by rewrite <-(pair_snd _ _ H). Qed.
Lemma ms3_eq : rstep slash false L ms2 mw = (ms3, ROk).
Proof. assert ((rstep slash false L ms2 mw).2 = ROk) as H by (by vm_compute). unfold ms3. by rewrite <-(pair_snd _ _ H). Qed.
Lemma ms_panic : st_panic ms1 = false ∧ st_panic ms2 = false ∧ st_panic ms3 = false.
Proof. by vm_compute. Qed.
Lemma ms3_me : t_disp (rec_ops slash false) L (st_tree ms3) me = ([KUser 1], false).
Proof. by vm_compute. Qed.
Lemma L_env : renv fsevents slash false novol L.
Proof. apply menv_ok. Qed.
Opaque ms1 ms2 ms3.
Example C53_recursive_hyps : ∃ l1 l2 l3 l4 c,
  mrun (l1 ++ LCall 1 (NStop 1) :: l2 ++ LRet 1 (NStop 1) ROk :: l3 ++ LOffer 3 1 me true :: l4) c.
Proof.
  destruct ms_panic as (P1&P2&P3).
  pose proof (TreeConcFacts.run_whole_call (rec_ops slash false) _ _ (rreport_ok fsevents slash false novol) L [] cfg0 mw ms1 ROk L_env ltac:(constructor) eq_refl ltac:(noreaders) mw_ok ms1_eq P1) as Hr.
  eapply (TreeConcFacts.run_whole_call _ _ _ _ L _ _ (NStop 1) ms2 ROk L_env) in Hr; [|reflexivity|noreaders|exact I|exact ms2_eq|done].
  eapply (TreeConcFacts.run_whole_call _ _ _ _ L _ _ mw ms3 ROk L_env) in Hr; [|reflexivity|noreaders|exact mw_ok|exact ms3_eq|done].
  eapply run_step in Hr; [|eapply s_report; [exact me_ok|simpl; unfold buffer; lia]].
  eapply run_step in Hr; [|eapply s_take; reflexivity].
  eapply (TreeConcFacts.run_deliver _ _ _ _ L _ _ 3%nat me 1%positive false L_env) in Hr; [|reflexivity|reflexivity|exact ms3_me].
  exists [LCall 0 mw; LTau; LTau; LCrit 0 mw ROk; LTau; LRet 0 mw ROk], [LTau; LTau; LCrit 1 (NStop 1) ROk; LTau],
    [LCall 2 mw; LTau; LTau; LCrit 2 mw ROk; LTau; LRet 2 mw ROk; LReport me; LTake 3 me; LTau], [LTau].
  eexists. exact Hr.
Qed.
Transparent ms1 ms2 ms3.

Print Assumptions C53_barrier.
Print Assumptions C53_barrier_recursive.
Print Assumptions C53_hyps.
Print Assumptions C53_recursive_hyps.
Print Assumptions C54_progress.
Print Assumptions C54_no_endless_work.
Print Assumptions C54_returns.
Print Assumptions C54_recursive.
Print Assumptions C54_hyps.
Print Assumptions C55_one_by_one_partial.
Print Assumptions C55_recursive_partial.
Print Assumptions C55_refuted.
Print Assumptions C55_hyps.
