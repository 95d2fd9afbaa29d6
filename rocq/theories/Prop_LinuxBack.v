(** * Property theorem C80: a directory that is removed and created again (Linux) *)
From Verif Require Import Base Event Watchpoint WatchpointFacts Paths PathsFacts Loop LoopFacts
  Node NodeFacts SpecTree WalkFacts RootFacts NonRec NonRecWp SpecNonRec SpecNonRecOS SpecOS NonRecFacts NonRecOps NonRecReg
  NonRecStep NonRecDisp NonRecStop NonRecOS NonRecCov NonRecFwd NonRecRun Prop_NonRec
  Clean SpecClean CleanFacts Inotify SpecInotify InotifyFacts InotifyTab Prop_Inotify Prop_Linux.
Local Open Scope N_scope.

Section held.
Context (P : platform) (HP : platform_ok P).
(** A plain Watch for events the path is held for already makes no call. *)
Lemma watch_held E s p n e s' r :
  nenv P slash E → nop_ok P slash (NWatch p false n e) → tinv P slash (st_tree s) →
  incl_ev e (total P (wp_at (st_tree s) p)) → nstep slash E s (NWatch p false n e) = (s', r) → r = ROk ∧ st_log s' = st_log s.
Proof.
  intros HE (Hu&H32&Hue) Ht Hin Hs. cbn [nstep] in Hs. unfold nr_Watch in Hs.
  destruct (nr_add_spec P slash E (st_tree s) p HE Ht Hu) as (t1&Hadd&Ht1&Hp1&Hw1&_). rewrite Hadd in Hs.
  unfold nr_watch in Hs. rewrite (node_wadd_spec P slash) in Hs by (done || apply HE). cbn [st_tree with_tree] in Hs.
  rewrite <-Hw1 in Hin. pose proof (tinv_wp_at _ _ _ p Ht1) as Hwp.
  pose proof (wadd_diff P (wp_at t1 p) (KUser n) e ltac:(done) (wo_agg _ _ Hwp)) as Hd. rewrite total_wadd in Hd by done.
  destruct Hd as [[_ Hd]|[Hd _]].
  - rewrite Hd in Hs. cbn in Hs. injection Hs as <- <-. done.
  - destruct Hd. clear - Hin. bits.
Qed.
End held.

(** A watched directory [d] has been removed; whoever is registered for [e] there has
    not been stopped.  Whatever is at [d] now, a Watch of [d] for [e] returns nil and
    registers the channel, but the kernel is not asked for anything: no file but those
    watched under other names is reported, so nothing that happens in a new directory
    [d] is. *)
Theorem C80_lost tr s itr si E d f m n e s' r :
  linux_system tr s itr si → nenv linux slash E → nop_ok linux slash (NWatch d false n e) → e ≠ 0 →
  ifile itr !! render slash d = Some (f, false) → incl_ev e (asked linux tr d m) →
  nstep slash E s (NWatch d false n e) = (s', r) →
  r = ROk ∧ linux_system (tr ++ [(NWatch d false n e, ROk)]) s' itr si ∧
  incl_ev e (asked linux (tr ++ [(NWatch d false n e, ROk)]) d n) ∧
  ∀ f' ev isdir cookie c r', (∀ q, ifile itr !! q ≠ Some (f', true)) → ¬ kernel_reports si f' ev isdir cookie c r'.
Proof.
  intros Hsys HE Hok He0 Hf Hask Hs. pose proof Hsys as [Hdr Hx Hor Ht Hnf].
  destruct (nexec_osi linux linux_ok slash tr s Ht) as [Hti _].
  destruct (watch_held linux E s d n e s' r) as [-> Hlog]; try done.
  { rewrite <-(ureg_asked linux linux_ok slash tr s) in Hask; [|by eapply nexec_where_nexec|done].
    destruct Hok as (_&_&Hue). intros i Hi. unfold total. apply has_ldiff. split.
    - apply has_others_get. exists (KUser m). split; [done|]. by apply Hask.
    - intros Hint. clear - Hue Hi Hint. unfold user_ev in Hue. by eapply Hue. }
  split; [done|]. split; [|split].
  - split; [by rewrite Hlog|done|done|by eapply nw_step|].
    apply Forall_app. split; [done|]. by apply Forall_singleton.
  - unfold asked. rewrite foldl_app. cbn [foldl]. fold (asked linux tr). unfold ask. rewrite decide_True by done.
    intros i Hi. rewrite !has_lor. auto.
  - intros f' ev isdir cookie c r' Hno (wd&m'&Hk&_&_).
    destruct (C38_kernel_only itr si wd f' m' Hx Hor Hk) as (q&e'&_&Hq&_). by apply (Hno q).
Qed.

(** ** After Stop *)
Definition is_gone (x : ienv * iop * bool) : Prop := ∃ i, x.1.2 = IGone i.
Lemma drives_last log p e itr : drives (log ++ [(WWatch p e, true)]) itr →
  ∃ itr0 E0 itr3, itr = itr0 ++ (E0, IWatch p e, true) :: itr3 ∧ Forall is_gone itr3.
Proof.
  remember (log ++ [(WWatch p e, true)]) as l eqn:Hl. intros H. revert log Hl.
  induction H as [|l itr E i r H IH|l itr E q e' r H IH|l itr E q e' e'' r H IH|l itr E q r H IH]; intros log Hl.
  - by destruct log.
  - destruct (IH log Hl) as (itr0&E0&itr3&->&Hg). exists itr0, E0, (itr3 ++ [(E, IGone i, r)]). split; [by rewrite <-app_assoc|].
    apply Forall_app. split; [done|]. apply Forall_singleton. by exists i.
  - apply app_inj_tail in Hl as [-> [= -> -> ->]]. by exists itr, E, [].
  - by apply app_inj_tail in Hl as [_ ?].
  - by apply app_inj_tail in Hl as [_ ?].
Qed.
Lemma iexec_at tr1 x tr2 s : iexec (tr1 ++ x :: tr2) s → ∃ s0 s1, istep x.1.1 s0 x.1.2 = (s1, x.2).
Proof.
  revert s. induction tr2 as [|y tr2 IH] using rev_ind; intros s H.
  - inversion H as [Hn|tr s0 E o s' r Hx HE Hst Hl]; [by destruct tr1|]. apply app_inj_tail in Hl as [_ <-]. eauto.
  - rewrite app_comm_cons, app_assoc in H. inversion H as [Hn|tr s0 E o s' r Hx HE Hst Hl]; [by destruct tr1|].
    apply app_inj_tail in Hl as [-> _]. by eapply IH.
Qed.
Lemma ifile_gones itr g p f : Forall is_gone g → ifile itr !! p = Some (f, true) → (∀ E r, (E, IGone f, r) ∉ g) →
  ifile (itr ++ g) !! p = Some (f, true).
Proof.
  induction g as [|[[E o] r] g IH] using rev_ind; intros Hg Hp Hno; [by rewrite app_nil_r|].
  apply Forall_app in Hg as [Hg [i Hi]%Forall_singleton]. cbn in Hi. subst o.
  rewrite app_assoc. unfold ifile. rewrite foldl_app. cbn [foldl file_step]. rewrite lookup_fmap. fold (ifile (itr ++ g)).
  rewrite IH; [|done|done|intros E' r' H; apply (Hno E' r'), elem_of_app; by left].
  cbn. rewrite bool_decide_true; [done|]. intros ->. apply (Hno E r), elem_of_app. right. by left.
Qed.

(** If the channel that held [d] (alone, on [d] and above) is stopped in between, the
    next Watch of [d] that returns nil asks the kernel for the file that is there now:
    as long as that one exists, C57_delivered and C57_delivered_native apply to it. *)
Theorem C80_after_stop_partial tr s itr si d k n e :
  linux_system (tr ++ [(NStop k, ROk); (NWatch d false n e, ROk)]) s itr si → d ≠ [] → Forall proper d →
  (∀ q m, q `prefix_of` d → holds linux tr q m → m = k) →
  ∃ itr0 Ei f itr3, itr = itr0 ++ (Ei, IWatch (render slash d) e, true) :: itr3 ∧ Forall is_gone itr3 ∧
    ie_ino Ei = Some f ∧ ((∀ E' r', (E', IGone f, r') ∉ itr3) → dir_watched itr d f).
Proof.
  intros [Hdr Hx Hor Ht Hnf] Hdn Hdp Hno.
  change [(NStop k, ROk); (NWatch d false n e, ROk)] with ([(NStop k, ROk)] ++ [(NWatch d false n e, ROk)]) in Ht. rewrite app_assoc in Ht.
  inversion Ht as [Hn|tr2 s1 E1 o1 s2 r1 Ht1 HE1 Ho1 HQ1 Hs1 Hl]; [by destruct (tr ++ _)|].
  apply app_inj_tail in Hl as [-> [= -> ->]]. subst s2.
  inversion Ht1 as [Hn|tr3 s0 E0 o0 s2 r0 Ht0 HE0 Ho0 HQ0 Hs0 Hl]; [by destruct tr|].
  apply app_inj_tail in Hl as [-> [= -> ->]]. subst s2.
  destruct (proper_upath d Hdn Hdp) as (_&Hcomp&_).
  destruct (C22_stop_releases_partial linux linux_ok slash tr s0 E0 s1 ROk k d Ht0 HE0 HQ0 Hs0 Hcomp Hno) as [Hwp Hos].
  destruct (nexec_osi linux linux_ok slash _ _ Ht1) as [Hti Hosi].
  destruct Ho1 as (Hu&H32&Hue). cbn [nstep] in Hs1. unfold nr_Watch in Hs1.
  destruct (nr_add_spec linux slash E1 (st_tree s1) d HE1 Hti Hu) as (t1&Hadd&Hti1&Hp1&Hw1&_). rewrite Hadd in Hs1.
  unfold nr_watch in Hs1. rewrite (node_wadd_spec linux slash) in Hs1 by (done || apply HE1). cbn [st_tree with_tree] in Hs1.
  pose proof (tinv_wp_at _ _ _ d Hti1) as Hwpok. rewrite Hw1, Hwp in *.
  pose proof (wadd_diff linux ∅ (KUser n) e ltac:(done) (wo_agg _ _ Hwpok)) as Hd. rewrite total_wadd in Hd by done.
  assert (total linux ∅ = 0) as Ht00 by (by vm_compute). rewrite Ht00 in Hd.
  assert (e .&^ internal linux = e) as He by (clear - Hue; unfold user_ev in Hue; bits). rewrite He, N.lor_0_l in Hd.
  destruct (wadd linux ∅ (KUser n) e) as [wp df] eqn:Ea. cbn [fst snd] in *.
  assert (e ≠ 0) as Hne by exact HQ1.
  assert (df = (0, e)) as -> by (destruct Hd as [[H _]|[_ ?]]; [by destruct Hne|done]).
  assert ((e =? 0) = false) as He0 by (by apply N.eqb_neq).
  unfold is_none in Hs1. cbn [fst snd] in Hs1. rewrite He0 in Hs1. cbn [andb] in Hs1. unfold wcallf in Hs1. cbn [N.eqb] in Hs1.
  cbn [st_tree with_tree st_log] in Hs1. rewrite name_at_set_wp in Hs1.
  destruct (e_W E1 (st_log s1) (WWatch (name_at t1 d) e)); [|done]. injection Hs1 as <-.
  destruct (nexec_osi linux linux_ok slash _ _ Ht) as [_ Hosi2]. pose proof (oi_strict _ _ _ Hosi2 d) as Hst.
  cbn [st_tree with_tree] in Hst. rewrite name_at_set_wp in Hst. destruct Hst as [_ Hnm]; [by rewrite set_wp_is_Some|].
  rewrite Hnm in Hdr. cbn [st_log with_tree] in Hdr. apply drives_last in Hdr as (itr0&Ei&itr3&->&Hg).
  destruct (iexec_at _ _ _ _ Hx) as (x0&x1&Hst). cbn [fst snd istep] in Hst.
  assert (∃ f, ie_ino Ei = Some f) as [f Hf].
  { unfold i_watch in Hst. destruct (negb _); [done|]. destruct (lazyinit _ _); [|done]. destruct (ie_ino Ei) as [f|]; [by exists f|done]. }
  exists itr0, Ei, f, itr3. split_and!; [done|done|done|]. intros Hng. split_and!; [done|done|].
  change (itr0 ++ (Ei, IWatch (render slash d) e, true) :: itr3) with (itr0 ++ [(Ei, IWatch (render slash d) e, true)] ++ itr3).
  rewrite app_assoc. apply ifile_gones; [done| |done]. unfold ifile. rewrite foldl_app. cbn [foldl file_step]. rewrite Hf. apply lookup_insert.
Qed.

(** ** Instances *)
(** Channel 1 watches /d for writes; /d (file 100) is removed and created again (file
    7); channel 2 watches it for writes, too: the call returns nil, but nothing
    that happens in the new /d is reported. *)
Local Ltac dec := apply (bool_decide_unpack _); by vm_compute.
Local Ltac good := cbn [snd fst os_good]; split_and?; first [done|apply reliable_allok|dec].
Local Ltac ops :=
  repeat (apply Forall_cons; split; [split; [apply E0_ok|split; [by vm_compute|good]]|]); apply Forall_nil; done.
Definition opsA : list (env * nop) := [(E0, NWatch (pth "d") false 1 IWrite)].
Definition trA := Eval vm_compute in (nrun init_st opsA).1.
Definition sA := (nrun init_st opsA).2.
Definition fA : positive := fileno (b "/d").
Definition itrA : itrace := Eval vm_compute in (follow <$> st_log sA) ++ [(IEnv true None id, IGone fA, true)].
Definition siA : ist := runi inew itrA.
Lemma systemA : linux_system trA sA itrA siA.
Proof.
  split.
  - assert (itrA = (follow <$> st_log sA) ++ [(IEnv true None id, IGone fA, true)]) as -> by (by vm_compute).
    constructor. apply follow_drives. by vm_compute.
  - apply iexec_run; [repeat constructor; by intros l|].
    intros k x Hk. do 8 (destruct k as [|k]; [first [done|injection Hk as <-; by vm_compute]|]). done.
  - apply orderly_check. intros k x Hk. do 8 (destruct k as [|k]; [first [done|injection Hk as <-; by vm_compute]|]). done.
  - change trA with (nrun init_st opsA).1. apply nrun_where. unfold opsA. ops.
  - by repeat constructor.
Qed.
Definition stepA : st * result := nstep slash E0 sA (NWatch (pth "d") false 2 IWrite).
Theorem C80_refuted :
  linux_system trA sA itrA siA ∧ nenv linux slash E0 ∧ ifile itrA !! b "/d" = Some (fA, false) ∧
  stepA = (stepA.1, ROk) ∧ linux_system (trA ++ [(NWatch (pth "d") false 2 IWrite, ROk)]) stepA.1 itrA siA ∧
  asked linux (trA ++ [(NWatch (pth "d") false 2 IWrite, ROk)]) (pth "d") 2 = IWrite ∧
  ∀ ev isdir cookie c r, ¬ kernel_reports siA 7 ev isdir cookie c r.
Proof.
  assert (nenv linux slash E0) as HE by apply E0_ok.
  assert (nop_ok linux slash (NWatch (pth "d") false 2 IWrite)) as Hok.
  { apply nop_okb_ok. by vm_compute. }
  destruct (C80_lost trA sA itrA siA E0 (pth "d") fA 1 2 IWrite stepA.1 stepA.2) as (Hr&Hsys&_&Hno).
  - apply systemA.
  - done.
  - done.
  - done.
  - by vm_compute.
  - assert (asked linux trA (pth "d") 1 = IWrite) as -> by (by vm_compute). by intros i.
  - by rewrite <-surjective_pairing.
  - split_and!; [apply systemA|done|by vm_compute|destruct stepA; cbn in *; by rewrite Hr|done|by vm_compute|].
    intros ev isdir cookie c r. apply Hno. intros q. assert (ifile itrA = {[ b "/d" := (fA, false) ]}) as -> by (apply (bool_decide_unpack _); by vm_compute).
    intros [_ H]%lookup_singleton_Some. congruence.
Qed.

(** With Stop of channel 1 after the removal, the Watch of channel 2 reaches the new /d
    (file 7), and what is written in it is reported to channel 2. *)
Definition opsB : list (env * nop) := opsA ++ [(E0, NStop 1); (E0, NWatch (pth "d") false 2 IWrite)].
Definition trB := Eval vm_compute in (nrun init_st opsB).1.
Definition sB := (nrun init_st opsB).2.
Definition itrB : itrace := itrA ++ [(IEnv true None id, IUnwatch (b "/d"), true); (IEnv true (Some 7%positive) id, IWatch (b "/d") IWrite, true)].
Definition siB : ist := runi inew itrB.
Example C80_ex :
  linux_system trB sB itrB siB ∧ trB = trA ++ [(NStop 1, ROk); (NWatch (pth "d") false 2 IWrite, ROk)] ∧
  (∀ q m, q `prefix_of` pth "d" → holds linux trA q m → m = 1%positive) ∧ dir_watched itrB (pth "d") 7 ∧
  kernel_reports siB 7 InModify false 0 (b "f") (Raw 2 InModify 0 (b "f")) ∧
  (ie_info <$> sent (i_m siB) [Raw 2 InModify 0 (b "f")]) = [EI IWrite (b "/d/f") (Some false) fTypeUnknown] ∧
  (nr_dispatch E0 (st_tree sB) (EI IWrite (b "/d/f") (Some false) fTypeUnknown)).1 = [KUser 2].
Proof.
  split_and!.
  - split.
    + change itrB with ((itrA ++ [(IEnv true None id, IUnwatch (b "/d"), true)]) ++ [(IEnv true (Some 7%positive) id, IWatch (b "/d") IWrite, true)]).
      assert (st_log sB = (st_log sA ++ [(WUnwatch (b "/d"), true)]) ++ [(WWatch (b "/d") IWrite, true)]) as -> by (by vm_compute).
      do 2 constructor. apply systemA.
    + apply iexec_run; [repeat constructor; by intros l|].
      intros k x Hk. do 8 (destruct k as [|k]; [first [done|injection Hk as <-; by vm_compute]|]). done.
    + apply orderly_check. intros k x Hk. do 8 (destruct k as [|k]; [first [done|injection Hk as <-; by vm_compute]|]). done.
    + change trB with (nrun init_st opsB).1. apply nrun_where. unfold opsB, opsA. cbn [app]. ops.
    + by repeat constructor.
  - done.
  - intros q m _ (tr0&isrec&e&r&tr2&Heq&_). destruct tr0 as [|x tr0]; [by injection Heq as <-|]. injection Heq as <- Heq. by destruct tr0.
  - split_and!; [done|dec|by vm_compute].
  - eexists 2%Z, _. split_and!; [by vm_compute|by vm_compute|done].
  - by vm_compute.
  - by vm_compute.
Qed.

Print Assumptions C80_lost.
Print Assumptions C80_after_stop_partial.
Print Assumptions C80_refuted.
