(** * Property theorems C91: from the kernel to the user's channels, under every schedule.

    The whole of notify on Linux below Watch and Stop of the package: the goroutines of the
    non-recursive tree and of the inotify watcher, and the kernel. *)
From Verif Require Import Base Event Watchpoint WatchpointFacts Paths PathsFacts Loop LoopFacts
  Node NodeFacts SpecTree WalkFacts RootFacts NonRec NonRecWp SpecNonRec SpecNonRecOS SpecOS NonRecFacts NonRecOps NonRecReg
  NonRecStep NonRecDisp NonRecStop NonRecOS NonRecBetween NonRecRun Prop_NonRec LawsFacts
  Clean SpecClean CleanFacts Inotify SpecInotify InotifyFacts InotifyTab Prop_Inotify Prop_Linux
  InotifyPipe SpecInotifyPipe InotifyPipeFacts Prop_InotifyPipe
  TreeConc SpecTreeConc TreeConcFacts SpecTreeDeliver TreeDeliverFacts Prop_TreeConc Prop_TreeDeliver LinuxConc SpecLinuxConc LinuxConcFacts.
Local Open Scope N_scope.

(** ** What is asked for is reported by the kernel *)
(** The events the theorems are about: the generic ones that stand for what happened, and
    inotify's own. *)
Definition stands_for (x i : N) : Prop := (∃ raws, (x, raws) ∈ generics ∧ has raws i) ∨ x = 2 ^ i.
Lemma stands_facts x i : stands_for x i → i < 12 → x ≠ 0 ∧ disj_ev x (internal linux) ∧ disj_ev x (omit linux) ∧ asks x i.
Proof.
  intros [(raws&Hg&Hi)| ->] Hlt.
  - destruct (generic_bits x raws Hg) as (H0&H1&H2&_). refine (conj H0 (conj H1 (conj H2 _))). right. exists x, raws. split; [exact Hg|split; [by intros j Hj|exact Hi]].
  - assert (∀ y, y .& N.ones 12 = 0 → disj_ev (2 ^ i) y) as Hdis.
    { intros y Hy j Hj1 Hj2. apply has_pow2 in Hj1 as ->. assert (has (y .& N.ones 12) i) as Hz.
      { apply has_land. split; [done|]. unfold has. by apply N.ones_spec_iff. } rewrite Hy in Hz. by apply has_0 in Hz. }
    refine (conj _ (conj _ (conj _ _))); [apply nonzero_bit; exists i; by apply has_pow2|by apply Hdis|by apply Hdis|]. left. split; [by apply has_pow2|].
    intros Ha. by apply (Hdis (All linux) eq_refl i); [apply has_pow2|].
Qed.
(** From the kernel to the channel of the dispatcher. *)
Lemma sent_from a b' dp f bi isdir cookie name r rs l4 c s x :
  let rep := SPipe (PReport f (2 ^ bi) isdir cookie name r rs) in
  srun (a ++ b' ++ rep :: l4) c s → SpecInotifyPipe.idle s → steady (a ++ b' ++ rep :: l4) → at_path (a ++ b') dp f →
  keeps (pipes (b' ++ rep :: l4)) (render slash dp) x →
  (∃ wd, ∀ s0, prun (pipes a) s0 → entry (i_m (p_i s0)) wd (render slash dp) x ∧ entry (i_m (virt s0)) wd (render slash dp) x) →
  stands_for x bi → bi < 12 →
  ∃ k ev u v, l4 = u ++ SSend k ev :: v ∧ ie_info ev = EI x (named (render slash dp) name) (Some isdir) fTypeUnknown.
Proof.
  intros rep Hs Hid Hsy Hf Hk [wd Hent] Hsf Hlt. pose proof (srun_prun _ _ _ Hs) as Hr. unfold at_path in Hf. unfold steady in Hsy.
  assert (pipes (a ++ b' ++ rep :: l4) = pipes a ++ pipes b' ++ PReport f (2 ^ bi) isdir cookie name r rs :: pipes l4) as Heq by (by rewrite !pipes_app).
  rewrite Heq in Hr, Hsy. rewrite pipes_app in Hf. rewrite pipes_app in Hk.
  assert (keeps (pipes b' ++ pipes l4) (render slash dp) x) as Hk'.
  { intros E o rs' Hin. apply (Hk E o rs'). apply elem_of_app in Hin as [Hin|Hin]; apply elem_of_app; [by left|right; by right]. }
  destruct (delivered_from _ _ _ _ _ wd x bi f isdir cookie name r rs Hent Hr Hid Hsy Hf Hk') as (k&es&M&He&Hin&Hsent).
  destruct (entry_complete M wd _ x es bi isdir cookie name He Hlt Hin) as [Hc1 Hc2].
  assert (∃ ev, ev ∈ Inotify.sent M es ∧ ie_info ev = EI x (named (render slash dp) name) (Some isdir) fTypeUnknown) as (ev&Hev&Hie).
  { destruct Hsf as [(raws&Hg&Hi)|Hx]; [by eapply Hc1|]. destruct (Hc2 Hx) as (ev&?&?). exists ev. by rewrite Hx. }
  apply Hsent in Hev. apply pipes_elem in Hev as [Hev|(k'&ev'&[= <- <-]&Hev)].
  - exfalso. eapply (srun_psent _ _ _ k ev Hs). rewrite !elem_of_app. right. right. by right.
  - apply elem_of_list_split in Hev as (u&v&->). by exists k, ev, u, v.
Qed.
(** The kernel reports what happens to a file whose watch stays. *)
Lemma kernel_active a b' dp f x bi c1 s1 isdir cookie name :
  srun (a ++ b') c1 s1 → steady (a ++ b') → at_path (a ++ b') dp f → keeps (pipes b') (render slash dp) x →
  (∃ wd, ∀ s0, prun (pipes a) s0 → entry (i_m (p_i s0)) wd (render slash dp) x ∧ entry (i_m (virt s0)) wd (render slash dp) x) →
  asks x bi → ∃ r, kernel_reports (p_i s1) f (2 ^ bi) isdir cookie name r.
Proof.
  intros Hs1 Hsy Hf Hk [wd Hent] Ha. unfold steady in Hsy. pose proof (srun_prun _ _ _ Hs1) as Hr1. unfold at_path in Hf.
  rewrite pipes_app in Hr1, Hsy, Hf. pose proof Hr1 as Hr0. apply prun_split in Hr0 as (s0&Hr0&Hss).
  destruct (entry_kept _ _ _ _ _ _ _ Hr0 Hss Hsy Hk (Hent _ Hr0)) as (_&m&Hm&Hkn&Hxm).
  pose proof (virt_exec _ _ Hr1) as Hex. pose proof (iexec_orderly _ _ Hex Hsy) as Hov.
  destruct (ov_file _ _ Hov _ _ _ Hm) as (f'&lv&Hf'&Hkk). rewrite Hf in Hf'. injection Hf' as <- <-.
  assert (i_k (virt s1) = i_k (p_i s1)) as Hki by (unfold virt; destruct (p_call s1) as [[[? ?] ?]|]; done).
  rewrite Hki in Hkk. eexists _, wd, _. split_and!; [exact Hkk| |reflexivity].
  apply nonzero_bit. exists bi. apply has_land. split; [by apply has_pow2|]. apply has_encode.
  destruct Ha as [[Ha1 Ha2]|(g&n'&Hg&Hgx&Hn)]; [left; split; [by apply Hxm|done]|right; exists g, n'; split_and!; [done| |done]].
  clear - Hgx Hxm. bits.
Qed.
(** ... and such a watch is there. *)
Lemma watch_set a b' dp x c1 s1 :
  srun (a ++ b') c1 s1 → steady (a ++ b') → keeps (pipes b') (render slash dp) x →
  (∃ wd, ∀ s0, prun (pipes a) s0 → entry (i_m (p_i s0)) wd (render slash dp) x ∧ entry (i_m (virt s0)) wd (render slash dp) x) →
  has_watch (a ++ b') dp.
Proof.
  intros Hs1 Hsy Hk [wd Hent]. unfold steady in Hsy. pose proof (srun_prun _ _ _ Hs1) as Hr1. unfold has_watch.
  rewrite pipes_app in Hr1, Hsy |- *. pose proof Hr1 as Hr0. apply prun_split in Hr0 as (s0&Hr0&Hss).
  destruct (entry_kept _ _ _ _ _ _ _ Hr0 Hss Hsy Hk (Hent _ Hr0)) as (_&m&Hm&Hkn&Hxm).
  pose proof (virt_exec _ _ Hr1) as Hex. pose proof (iexec_orderly _ _ Hex Hsy) as Hov.
  destruct (ov_file _ _ Hov _ _ _ Hm) as (f'&lv&Hf'&_). by exists f', lv.
Qed.
Section after_watch.
Context (l1 : list slab) (i : nat) (p : path) (isrec : bool) (n : positive) (e : N) (l2 l3 : list slab).
Notation w := (NWatch p isrec n e).
(** [l1], then a call of Watch without error, from its start to its return, and [l3]. *)
Definition upto : list slab := l1 ++ STree (LCall i w) :: l2 ++ STree (LRet i w ROk) :: l3.
(** The run goes on with [l4], and there is nothing that ends the watch: no Stop of the
    channel is called that had not returned when Watch was called, and no removal of [p] or
    of a directory above is processed. *)
Definition stays (l4 : list slab) (c : cfg) (s : pst) : Prop :=
  srun (upto ++ l4) c s ∧ clean_names (upto ++ l4) ∧ steady (upto ++ l4) ∧
  no_stop_since (trees l1) (trees (upto ++ l4)) n ∧ not_removed linux slash (trees (upto ++ l4)) p ∧
  p ≠ [] ∧ Forall proper p.

Lemma upto_split l4 c s g : stays l4 c s → ¬ writing c → incl_ev g e → g ≠ 0 → disj_ev g (internal linux) →
  ∃ a b, upto = a ++ b ∧ keeps (pipes (b ++ l4)) (render slash p) g ∧
  ∃ wd, ∀ s0, prun (pipes a) s0 → entry (i_m (p_i s0)) wd (render slash p) g ∧ entry (i_m (virt s0)) wd (render slash p) g.
Proof.
  intros (Hs&Hcl&Hsy&Hno&Hrm&Hp0&Hp) Hnw Hge Hg0 Hgi.
  assert (upto ++ l4 = l1 ++ STree (LCall i w) :: l2 ++ STree (LRet i w ROk) :: (l3 ++ l4)) as Heq.
  { unfold upto. repeat (rewrite <-?app_assoc; cbn [app]). done. }
  rewrite Heq in Hs, Hcl, Hsy, Hno, Hrm.
  destruct (watch_effect _ _ _ _ _ _ _ _ _ _ _ Hs Hcl Hsy Hno) as (x&y&Hl2&Hst). rewrite Hl2 in Hs, Hcl, Hsy, Hrm.
  set (X := STree (LCrit i w ROk)) in *. set (B := y ++ STree (LRet i w ROk) :: l3 ++ l4) in *.
  set (A := l1 ++ STree (LCall i w) :: x) in *.
  assert (l1 ++ STree (LCall i w) :: (x ++ X :: y) ++ STree (LRet i w ROk) :: l3 ++ l4 = A ++ X :: B) as Heq2.
  { unfold A, B. repeat (rewrite <-?app_assoc; cbn [app]). done. }
  rewrite Heq2 in Hs, Hcl, Hsy, Hrm.
  destruct (effect_keeps _ _ _ _ _ _ _ _ _ g Hs Hnw Hcl Hsy) as (Hk&wd&Hent); try done.
  - intros ei q Hin. apply (Hrm ei q). rewrite trees_app. apply elem_of_app. right. by right.
  - by destruct (proper_upath p Hp0 Hp) as (_&?&_).
  - exists (A ++ [X]), (y ++ STree (LRet i w ROk) :: l3). split_and!; [|by rewrite <-app_assoc|by exists wd].
    unfold upto, A. rewrite Hl2. repeat (rewrite <-?app_assoc; cbn [app]). done.
Qed.
(** Once Watch has returned, and as long as the watch stays, [p] has a watch set; ... *)
Theorem C91_set l4 c s c1 s1 x bi :
  stays l4 c s → ¬ writing c → srun upto c1 s1 → stands_for x bi → bi < 12 → incl_ev x e → has_watch upto p.
Proof.
  intros Hst Hnw Hs1 Hsf Hlt Hxe. destruct (stands_facts x bi Hsf Hlt) as (Hx0&Hxi&_&Ha).
  destruct (upto_split l4 c s x Hst Hnw Hxe Hx0 Hxi) as (a&b&Hab&Hk&Hent).
  destruct Hst as (_&_&Hsy&_). apply steady_app in Hsy. rewrite pipes_app in Hk. apply keeps_app in Hk as [Hk _].
  rewrite Hab in Hs1, Hsy |- *. by eapply watch_set.
Qed.
(** ... once Watch has returned, and as long as the watch stays, the kernel reports whatever
    the Watch asks for and happens to the file: whatever other calls of the watcher are
    under way. *)
Theorem C91_reported l4 c s c1 s1 x bi f isdir cookie name :
  stays l4 c s → ¬ writing c → srun upto c1 s1 → at_path upto p f →
  stands_for x bi → bi < 12 → incl_ev x e →
  ∃ r, kernel_reports (p_i s1) f (2 ^ bi) isdir cookie name r.
Proof.
  intros Hst Hnw Hs1 Hf Hsf Hlt Hxe. destruct (stands_facts x bi Hsf Hlt) as (Hx0&Hxi&_&Ha).
  destruct (upto_split l4 c s x Hst Hnw Hxe Hx0 Hxi) as (a&b&Hab&Hk&Hent).
  destruct Hst as (_&_&Hsy&_). apply steady_app in Hsy. rewrite pipes_app in Hk. apply keeps_app in Hk as [Hk _].
  rewrite Hab in Hs1, Hf, Hsy. by eapply kernel_active.
Qed.

(** ** and offered to the channel *)
Lemma sent_after f bi isdir cookie name r rs l4 c s x :
  let rep := SPipe (PReport f (2 ^ bi) isdir cookie name r rs) in
  stays (rep :: l4) c s → at_rest c s → at_path upto p f → stands_for x bi → bi < 12 → incl_ev x e →
  ∃ k ev u v, l4 = u ++ SSend k ev :: v ∧ ie_info ev = EI x (named (render slash p) name) (Some isdir) fTypeUnknown.
Proof.
  intros rep Hst [Hq Hid] Hf Hsf Hlt Hxe. destruct (stands_facts x bi Hsf Hlt) as (Hx0&Hxi&_&_).
  destruct (upto_split _ c s x Hst (quiet_not_writing _ Hq) Hxe Hx0 Hxi) as (a&b&Hab&Hk&Hent).
  destruct Hst as (Hs&_&Hsy&_). rewrite Hab in Hf. rewrite Hab, <-app_assoc in Hs, Hsy. by eapply sent_from.
Qed.
Lemma offered_sent rep l4 c s x pth k ev u v isdir d y :
  stays (rep :: l4) c s → quiescent c → (∀ l, trees (rep :: l) = trees l) → l4 = u ++ SSend k ev :: v →
  ie_info ev = EI x pth (Some isdir) fTypeUnknown → x ≠ 0 → disj_ev x (omit linux) → incl_ev x e →
  pth = render slash (d ++ [y]) → d ≠ [] → Forall proper d → proper y → p = d ++ [y] ∨ p = d ∨ isrec = true ∧ p `prefix_of` d →
  ∃ j b', STree (LOffer j n (EI x pth (Some isdir) fTypeUnknown) b') ∈ l4.
Proof.
  intros Hst Hq Hrep -> Hie Hx0 Hxo Hxe Hnm Hd0 Hd Hy Hpd. destruct Hst as (Hs&Hcl&Hsy&Hno&Hrm&_).
  pose proof (srun_nrun _ _ _ Hs Hcl Hsy) as Hr.
  assert (trees (upto ++ rep :: u ++ SSend k ev :: v) =
    trees l1 ++ LCall i w :: trees l2 ++ LRet i w ROk :: (trees l3 ++ trees u) ++ LReport (ie_info ev) :: trees v) as Heq.
  { unfold upto. rewrite trees_app, Hrep. repeat (rewrite ?trees_app, ?trees_cons_tree, <-?app_assoc; cbn). done. }
  rewrite Heq in Hr, Hno, Hrm.
  destruct (C89_delivered linux linux_ok eq_refl slash _ _ _ _ _ _ _ _ _ _ _ d y Hr Hq) as (j&b'&Hin); [| |done|done|].
  - unfold ie_info in Hie. injection Hie as H1 H2 _. apply info_reported; rewrite ?H1, ?H2; done.
  - rewrite Hie. by split.
  - exists j, b'. apply elem_of_list_omap in Hin as (z&Hz&Heqz). rewrite Hie in Heqz. apply elem_of_app. right. right.
    destruct z as [l|l|k' ev']; cbn in Heqz; [|done|done]. by injection Heqz as ->.
Qed.
Lemma offered_after f bi isdir cookie name r rs l4 c s x d y :
  let rep := SPipe (PReport f (2 ^ bi) isdir cookie name r rs) in
  stays (rep :: l4) c s → at_rest c s → at_path upto p f → stands_for x bi → bi < 12 → incl_ev x e →
  named (render slash p) name = render slash (d ++ [y]) → d ≠ [] → Forall proper d → proper y → p = d ++ [y] ∨ p = d →
  ∃ j b', STree (LOffer j n (EI x (named (render slash p) name) (Some isdir) fTypeUnknown) b') ∈ l4.
Proof.
  intros rep Hst Hq Hf Hsf Hlt Hxe Hnm Hd0 Hd Hy Hpd.
  destruct (sent_after f bi isdir cookie name r rs l4 c s x Hst Hq Hf Hsf Hlt Hxe) as (k&ev&u&v&Hl4&Hie).
  destruct (stands_facts x bi Hsf Hlt) as (Hx0&Hxi&Hxo&_).
  eapply (offered_sent rep l4 c s x _ k ev u v isdir d y Hst (proj1 Hq)); try done. by destruct Hpd as [?|?]; [left|right; left].
Qed.
(** Something happens to the entry [name] of the watched directory and is reported by the
    kernel after Watch has returned: the channel is offered the event that stands for it,
    with the joined path, by the time nothing is left to do; whatever else is called and
    happens meanwhile, and whatever the schedule of all the goroutines. *)
Theorem C91_delivered f bi isdir cookie name r rs l4 c s x :
  let rep := SPipe (PReport f (2 ^ bi) isdir cookie name r rs) in
  stays (rep :: l4) c s → at_rest c s → at_path upto p f → proper name →
  stands_for x bi → bi < 12 → incl_ev x e →
  ∃ j taken, STree (LOffer j n (EI x (render slash (p ++ [name])) (Some isdir) fTypeUnknown) taken) ∈ l4.
Proof.
  intros rep Hst Hq Hf Hn Hsf Hlt Hxe. pose proof Hst as (_&_&_&_&_&Hp0&Hp).
  destruct (joined p name Hp0 Hp Hn) as [Hn0 Hj].
  assert (named (render slash p) name = render slash (p ++ [name])) as Hnm by (by destruct name).
  rewrite <-Hnm. eapply offered_after; try done. by right.
Qed.
(** The same for what happens to the watched file or directory itself, unless it is in the
    root directory (see C29_top_level_refuted). *)
Theorem C91_delivered_self f bi isdir cookie r rs l4 c s x d y :
  let rep := SPipe (PReport f (2 ^ bi) isdir cookie [] r rs) in
  stays (rep :: l4) c s → at_rest c s → at_path upto p f → p = d ++ [y] → d ≠ [] →
  stands_for x bi → bi < 12 → incl_ev x e →
  ∃ j taken, STree (LOffer j n (EI x (render slash p) (Some isdir) fTypeUnknown) taken) ∈ l4.
Proof.
  intros rep Hst Hq Hf Hpd Hd0 Hsf Hlt Hxe. pose proof Hst as (_&_&_&_&_&_&Hp). rewrite Hpd in Hp. apply Forall_app in Hp as [Hd Hy].
  apply Forall_cons_1, proj1 in Hy. eapply (offered_after f bi isdir cookie [] r rs l4 c s x d y); try done; [cbn; by rewrite Hpd|by left].
Qed.
End after_watch.

(** ** Below a recursive watch *)
Section below.
Context (l1 : list slab) (i : nat) (p : path) (n : positive) (e : N) (l2 : list slab).
Notation w := (NWatch p true n e).
Notation upto := (upto l1 i p true n e l2).
Notation stays := (stays l1 i p true n e l2).
(** A directory [q] at or below [p] that is there from the effect of the Watch on, or from
    the moment on at which its creation has been processed. *)
Definition there (l3 l4 : list slab) (q : path) : Prop :=
  not_created (l2 ++ l3 ++ l4) q ∨ ∃ m1 ei m2, l3 = m1 ++ STree (LInt ei) :: m2 ∧ not_created (m2 ++ l4) q.
Lemma below_split l3 l4 tr D c s q g :
  stays l3 l4 c s → ¬ writing c → frun (upto l3 ++ l4) tr D c s → q ∈ D → p `prefix_of` q → there l3 l4 q → incl_ev g e →
  ∃ a b', upto l3 = a ++ b' ∧ keeps (pipes (b' ++ l4)) (render slash q) g ∧
  ∃ wd, ∀ s0, prun (pipes a) s0 → entry (i_m (p_i s0)) wd (render slash q) g ∧ entry (i_m (virt s0)) wd (render slash q) g.
Proof.
  intros (Hs&Hcl&Hsy&Hno&Hrm&Hp0&Hp) Hnw Hf Hq Hpq Hth Hge.
  assert (upto l3 ++ l4 = l1 ++ STree (LCall i w) :: l2 ++ STree (LRet i w ROk) :: (l3 ++ l4)) as Heq.
  { unfold Prop_LinuxConc.upto. repeat (rewrite <-?app_assoc; cbn [app]). done. }
  pose proof Hs as Hs'. pose proof Hcl as Hcl'. pose proof Hsy as Hsy'. rewrite Heq in Hs', Hcl', Hsy', Hno.
  destruct (watch_effect _ _ _ _ _ _ _ _ _ _ _ Hs' Hcl' Hsy' Hno) as (x&y&Hl2&Hst). clear Hs' Hcl' Hsy'.
  set (X := STree (LCrit i w ROk)) in *. set (A := l1 ++ STree (LCall i w) :: x).
  assert (upto l3 = A ++ X :: y ++ STree (LRet i w ROk) :: l3) as HU.
  { unfold Prop_LinuxConc.upto, A. rewrite Hl2. repeat (rewrite <-?app_assoc; cbn [app]). done. }
  destruct Hth as [Hnc|(m1&ei&m2&Hl3&Hnc)].
  - set (B := y ++ STree (LRet i w ROk) :: l3).
    assert (upto l3 ++ l4 = (A ++ [X]) ++ B ++ l4) as Heq2.
    { rewrite HU. unfold B. repeat (rewrite <-?app_assoc; cbn [app]). done. }
    rewrite Heq2 in Hs, Hcl, Hsy, Hrm, Hf.
    destruct (below_thru A i p n e [] A X (B ++ l4) tr D c s q g) as (c1&s1&K1&K2&K3&K4&K5); try done.
    + left. by eexists _, _, _.
    + cbn [app]. unfold B. rewrite <-app_assoc. exact Hst.
    + intros ei q' Hin. apply (Hrm ei q'). rewrite trees_app. apply elem_of_app. by right.
    + intros ei q' Hin. apply (Hnc ei q'). unfold B in Hin. rewrite Hl2. revert Hin. rewrite !elem_of_app, !elem_of_cons. intros [[?|[?|?]]|?]; [|done|..]; auto.
    + exists (A ++ [X]), B. split; [rewrite HU; unfold B; by rewrite <-app_assoc|]. by eapply thru_keeps.
  - set (C := y ++ STree (LRet i w ROk) :: m1). set (Z := STree (LInt ei)) in *.
    assert (upto l3 ++ l4 = ((A ++ X :: C) ++ [Z]) ++ m2 ++ l4) as Heq2.
    { rewrite HU, Hl3. unfold C. repeat (rewrite <-?app_assoc; cbn [app]). done. }
    rewrite Heq2 in Hs, Hcl, Hsy, Hrm, Hf.
    destruct (below_thru A i p n e (C ++ [Z]) (A ++ X :: C) Z (m2 ++ l4) tr D c s q g) as (c1&s1&K1&K2&K3&K4&K5); try done.
    + by rewrite <-app_assoc.
    + right. by eexists.
    + assert ((C ++ [Z]) ++ m2 ++ l4 = y ++ STree (LRet i w ROk) :: l3 ++ l4) as ->; [|exact Hst].
      unfold C. rewrite Hl3. repeat (rewrite <-?app_assoc; cbn [app]). done.
    + intros ei' q' Hin. apply (Hrm ei' q'). rewrite <-!app_assoc. cbn [app]. rewrite trees_app. apply elem_of_app. right. right.
      rewrite <-!app_assoc in Hin. exact Hin.
    + exists ((A ++ X :: C) ++ [Z]), m2. split; [rewrite HU, Hl3; unfold C; repeat (rewrite <-?app_assoc; cbn [app]); done|]. by eapply thru_keeps.
Qed.
(** A directory that is there has a watch set; ... *)
Theorem C91_below_set l3 l4 tr D c s c1 s1 q :
  stays l3 l4 c s → ¬ writing c → frun (upto l3 ++ l4) tr D c s → q ∈ D → p `prefix_of` q → there l3 l4 q →
  srun (upto l3) c1 s1 → has_watch (upto l3) q.
Proof.
  intros Hst Hnw Hfr Hq Hpq Hth Hs1. assert (incl_ev e e) as He by (by intros j Hj).
  destruct (below_split _ _ _ _ _ _ q e Hst Hnw Hfr Hq Hpq Hth He) as (a&b'&Hab&Hk&Hent).
  destruct Hst as (_&_&Hsy&_). apply steady_app in Hsy. rewrite pipes_app in Hk. apply keeps_app in Hk as [Hk _].
  rewrite Hab in Hs1, Hsy |- *. by eapply watch_set.
Qed.
(** ... whatever the recursive Watch asks for and happens to a directory that is there is
    reported by the kernel; ... *)
Theorem C91_below_reported l3 l4 tr D c s c1 s1 x bi f isdir cookie name q :
  stays l3 l4 c s → ¬ writing c → frun (upto l3 ++ l4) tr D c s → q ∈ D → p `prefix_of` q → there l3 l4 q →
  srun (upto l3) c1 s1 → at_path (upto l3) q f → stands_for x bi → bi < 12 → incl_ev x e →
  ∃ r, kernel_reports (p_i s1) f (2 ^ bi) isdir cookie name r.
Proof.
  intros Hst Hnw Hfr Hq Hpq Hth Hs1 Hf Hsf Hlt Hxe. destruct (stands_facts x bi Hsf Hlt) as (Hx0&Hxi&_&Ha).
  destruct (below_split _ _ _ _ _ _ q x Hst Hnw Hfr Hq Hpq Hth Hxe) as (a&b'&Hab&Hk&Hent).
  destruct Hst as (_&_&Hsy&_). apply steady_app in Hsy. rewrite pipes_app in Hk. apply keeps_app in Hk as [Hk _].
  rewrite Hab in Hs1, Hf, Hsy. by eapply kernel_active.
Qed.
(** ... and offered to the channel, if it happens to an entry of the directory ... *)
Theorem C91_below_delivered l3 l4 tr D c s x bi f isdir cookie name r rs q :
  let rep := SPipe (PReport f (2 ^ bi) isdir cookie name r rs) in
  stays l3 (rep :: l4) c s → at_rest c s → frun (upto l3 ++ rep :: l4) tr D c s → q ∈ D → p `prefix_of` q → there l3 l4 q →
  at_path (upto l3) q f → Forall proper q → proper name → stands_for x bi → bi < 12 → incl_ev x e →
  ∃ j taken, STree (LOffer j n (EI x (render slash (q ++ [name])) (Some isdir) fTypeUnknown) taken) ∈ l4.
Proof.
  intros rep Hst [Hq Hid] Hfr HqD Hpq Hth Hf Hpr Hn Hsf Hlt Hxe. destruct (stands_facts x bi Hsf Hlt) as (Hx0&Hxi&Hxo&Ha).
  assert (there l3 (rep :: l4) q) as Hth'.
  { destruct Hth as [Hnc|(m1&ei&m2&Hl3&Hnc)]; [left|right; exists m1, ei, m2; split; [done|]]; intros ei' q' Hin; apply (Hnc ei' q').
    - revert Hin. rewrite !elem_of_app, elem_of_cons. intros [?|[?|[?|?]]]; [..|done|]; auto.
    - revert Hin. rewrite !elem_of_app, elem_of_cons. intros [?|[?|?]]; [|done|]; auto. }
  destruct (below_split _ _ _ _ _ _ q x Hst (quiet_not_writing _ Hq) Hfr HqD Hpq Hth' Hxe) as (a&b'&Hab&Hk&Hent).
  pose proof Hst as (Hs&_&Hsy&_&_&Hp0&_). rewrite Hab in Hf. rewrite Hab, <-app_assoc in Hs, Hsy.
  destruct (sent_from _ _ _ _ _ _ _ _ _ _ _ _ _ _ Hs Hid Hsy Hf Hk Hent Hsf Hlt) as (k&ev&u&v&Hl4&Hie).
  assert (q ≠ []) as Hq0 by (intros ->; by apply prefix_nil_inv in Hpq).
  destruct (joined q name Hq0 Hpr Hn) as [Hn0 Hj]. assert (named (render slash q) name = render slash (q ++ [name])) as Hnm by (by destruct name).
  rewrite <-Hnm. eapply (offered_sent _ _ _ _ _ _ _ _ rep l4 c s x _ k ev u v isdir q name Hst Hq); try done. right. by right.
Qed.
(** ... or to the directory itself, below [p]. *)
Theorem C91_below_delivered_self l3 l4 tr D c s x bi f isdir cookie r rs d y :
  let rep := SPipe (PReport f (2 ^ bi) isdir cookie [] r rs) in let q := d ++ [y] in
  stays l3 (rep :: l4) c s → at_rest c s → frun (upto l3 ++ rep :: l4) tr D c s → q ∈ D → p `prefix_of` d → there l3 l4 q →
  at_path (upto l3) q f → Forall proper q → stands_for x bi → bi < 12 → incl_ev x e →
  ∃ j taken, STree (LOffer j n (EI x (render slash q) (Some isdir) fTypeUnknown) taken) ∈ l4.
Proof.
  intros rep q Hst [Hq Hid] Hfr HqD Hpd Hth Hf Hpr Hsf Hlt Hxe. destruct (stands_facts x bi Hsf Hlt) as (Hx0&Hxi&Hxo&Ha).
  assert (there l3 (rep :: l4) q) as Hth'.
  { destruct Hth as [Hnc|(m1&ei&m2&Hl3&Hnc)]; [left|right; exists m1, ei, m2; split; [done|]]; intros ei' q' Hin; apply (Hnc ei' q').
    - revert Hin. rewrite !elem_of_app, elem_of_cons. intros [?|[?|[?|?]]]; [..|done|]; auto.
    - revert Hin. rewrite !elem_of_app, elem_of_cons. intros [?|[?|?]]; [|done|]; auto. }
  assert (p `prefix_of` q) as Hpq by (by apply prefix_app_r).
  destruct (below_split _ _ _ _ _ _ q x Hst (quiet_not_writing _ Hq) Hfr HqD Hpq Hth' Hxe) as (a&b'&Hab&Hk&Hent).
  pose proof Hst as (Hs&_&Hsy&_&_&Hp0&_). rewrite Hab in Hf. rewrite Hab, <-app_assoc in Hs, Hsy.
  destruct (sent_from _ _ _ _ _ _ _ _ _ _ _ _ _ _ Hs Hid Hsy Hf Hk Hent Hsf Hlt) as (k&ev&u&v&Hl4&Hie).
  assert (d ≠ []) as Hd0 by (intros ->; by apply prefix_nil_inv in Hpd).
  apply Forall_app in Hpr as [Hd [Hy _]%Forall_cons_1].
  eapply (offered_sent _ _ _ _ _ _ _ _ rep l4 c s x _ k ev u v isdir d y Hst Hq); try done. right. by right.
Qed.
End below.

(** ** Nothing else is offered *)
Lemma srun_unreported ls c s ei : srun ls c s → STree (LReport ei) ∉ ls.
Proof.
  induction 1; [apply not_elem_of_nil|..]; intros [?|Heq]%snoc_elem; try done. by injection Heq as <-.
Qed.
(** An event that is offered to a channel was sent for a record the kernel had queued, of a
    watch set by then, and there are calls of Watch of the channel, not stopped since, that
    ask for it: on the path of the event, its directory or, recursively, a directory above. *)
Theorem C91_only ls c s j n ei b' :
  srun ls c s → clean_names ls → steady ls → STree (LOffer j n ei b') ∈ ls →
  (∃ k ev r q m, SSend k ev ∈ ls ∧ ie_info ev = ei ∧ r ∈ queued (pipes ls) ∧ ei_path ei = named q (r_name r) ∧
     incl_ev (ei_event ei) m ∧ ∃ E rs, SPipe (PBegin E (IWatch q m) rs) ∈ ls) ∧
  ∀ d x, d ≠ [] → comps_ok slash d → [] ∉ d → comp_ok slash x → ei_path ei = render slash (d ++ [x]) →
  ∃ la lb q, trees ls = la ++ lb ∧ LTake j ei ∈ la ∧
    (q = d ++ [x] ∨ q = d ∨ q `prefix_of` d ∧ ∃ e, standing la n q true e) ∧
    ∀ y, has (ei_event ei) y → ∃ isrec e, standing la n q isrec e ∧ has (e .| rec_bit linux isrec) y.
Proof.
  intros Hs Hcl Hsy Hin. pose proof (srun_nrun _ _ _ Hs Hcl Hsy) as Hr. pose proof (srun_prun _ _ _ Hs) as Hp.
  assert (LOffer j n ei b' ∈ trees ls) as Ho by (apply elem_of_list_omap; by eexists).
  destruct (sent_some _ _ _ _ _ _ _ _ _ _ Hr Ho) as (la&lb&c0&E&Heq&Hr0&Ht&_).
  assert (LReport ei ∈ trees ls) as Hrep.
  { assert (ei ∈ reports (trees ls)) as Hx.
    { rewrite (run_takes _ _ _ _ _ _ Hr). apply elem_of_app. left. rewrite Heq, takes_app. apply elem_of_app. left.
      apply elem_of_list_omap. by exists (LTake j ei). }
    apply elem_of_list_omap in Hx as ([]&Hl&Hx); try done. by injection Hx as <-. }
  assert (∃ k ev, SSend k ev ∈ ls ∧ ie_info ev = ei) as (k&ev&Hsend&Hie).
  { apply elem_of_list_omap in Hrep as (z&Hz&Hx). destruct z as [l|l|k ev]; cbn in Hx; [|done|exists k, ev; by injection Hx as <-].
    injection Hx as ->. by apply (srun_unreported _ _ _ ei) in Hs. }
  assert (PSent k ev ∈ pipes ls) as Hps by (apply elem_of_list_omap; by exists (SSend k ev)).
  assert (nreport_ok linux slash ei) as Hok by (rewrite <-Hie; by eapply sent_report).
  split.
  - destruct (C90_sound _ _ _ _ Hp Hsy Hps) as (es&t0&t3&t2&r&q&m&Hb&Hls&_&Hres&Htab&Hincl&H0&Hpath).
    exists k, ev, r, q, m. rewrite <-Hie. split_and!; try done.
    + rewrite <-(C90_read _ _ Hp). apply elem_of_app. left. apply elem_of_list_In, in_concat. exists es.
      split; apply elem_of_list_In; [by eapply elem_of_list_lookup_2|done].
    + rewrite Hls in Hp. apply prun_app in Hp as [s0 Hp0]. unfold steady in Hsy. rewrite Hls, calls_app in Hsy. apply orderly_app in Hsy.
      destruct (itab_asked _ _ _ _ Hp0 Hsy Htab) as (_&E'&rs&Hbeg).
      assert (PBegin E' (IWatch q m) rs ∈ pipes ls) as Hbeg' by (rewrite Hls; apply elem_of_app; by left).
      apply pipes_elem in Hbeg' as [Hbeg'|(?&?&?&_)]; [eauto|done].
  - intros d x Hd0 Hdc Hdn Hxc Hpx. destruct Hok as (Hz1&Hz2&_).
    destruct (C89_only linux linux_ok eq_refl slash _ _ _ _ _ _ d x Hr Ho) as (la'&lb'&q&H1&H2&_&H3&H4).
    + split_and!; try done. by apply (gpath_upath linux linux_ok slash).
    + exists la', lb', q. by split_and!.
Qed.
(** ** An instance *)
(** Channel 1 watches /a/b for Create, a file x is created in it; Stop is called for
    channel 2, and waits for the lock and gets it while the record goes through the
    watcher. *)
Local Ltac noreaders := let H := fresh in intros ? ? ? ? H; simpl in H;
  repeat first [apply lookup_insert_Some in H as [[? ?]|[? H]]; [congruence|]|apply lookup_delete_Some in H as [? H]|by rewrite lookup_empty in H].
Definition w0 : nop := NWatch (pth "a/b") false 1 ICreate.
Definition s0 : st := (nstep slash E0 init_st w0).1.
Definition s1 : st := (nstep slash E0 s0 (NStop 2)).1.
Definition e0 : ievent := IE 1 InCreate 0 (b "/a/b/x") ICreate.
Definition o0 : iop := IWatch (b "/a/b") ICreate.
Lemma w0_s0 : nstep slash E0 init_st w0 = (s0, ROk).
Proof. assert ((nstep slash E0 init_st w0).2 = ROk) as H by (by vm_compute). unfold s0. by rewrite <-(pair_snd _ _ H). Qed.
Lemma s0_s1 : nstep slash E0 s0 (NStop 2) = (s1, ROk).
Proof. assert ((nstep slash E0 s0 (NStop 2)).2 = ROk) as H by (by vm_compute). unfold s1. by rewrite <-(pair_snd _ _ H). Qed.
Lemma s1_e0 : nr_dispatch E0 (st_tree s1) (ie_info e0) = ([KUser 1], false).
Proof. by vm_compute. Qed.
Lemma s0_log : st_log s0 = [(WWatch (b "/a/b") ICreate, true)] ∧ st_log s1 = [(WWatch (b "/a/b") ICreate, true)] ∧
  st_panic s0 = false ∧ st_panic s1 = false.
Proof. by vm_compute. Qed.
Lemma E0_reliable : reliable E0.
Proof. by intros l c. Qed.
Definition ex_rep : slab := SPipe (PReport 5 InCreate false 0 (b "x") rcreate [rcreate]).
Definition ex_l2 : list slab := [STree LTau; STree LTau; SPipe (PBegin (env_at 5) o0 []); SPipe (PEnd (env_at 5) o0);
  STree (LCrit 0 w0 ROk); STree LTau].
Definition ex_l4 : list slab := [SPipe (PRead 0 [rcreate]); STree (LCall 1 (NStop 2)); SPipe PTau; STree LTau; SPipe (PTrans 0);
  STree LTau; SSend 0 e0; STree (LCrit 1 (NStop 2) ROk); STree (LTake 2 (ie_info e0)); STree LTau; SPipe (PDone 0); STree LTau;
  STree (LOffer 2 1 (ie_info e0) true); STree (LRet 1 (NStop 2) ROk); STree LTau].
Notation ex_upto := (upto [] 0 (pth "a/b") false 1 ICreate ex_l2 []).
Opaque s0 s1.
Local Ltac tr tac := idtac; match goal with Hr : srun _ _ _ |- _ => eapply srun_tree in Hr; [|tac|done] end.
Local Ltac pp tac := idtac; match goal with Hr : srun _ _ _ |- _ => eapply srun_pipe in Hr; [|eapply pstep_eq; [tac|sh|sh]|intros ? ? Hz; discriminate Hz|first [intros Hz; exact (False_ind _ Hz)|intros _; left; exists 0%nat, w0; reflexivity]] end.
Lemma ex_run : ∃ c s c' s', srun ex_upto c s ∧ srun (ex_upto ++ ex_rep :: ex_l4) c' s' ∧ at_rest c' s'.
Proof.
  destruct s0_log as (L0&L1&P0&P1).
  pose proof srun_init as Hr.
  tr ltac:(eapply (s_call _ _ _ _ _ w0); split; [done|]; apply nop_okb_ok; by vm_compute).
  tr ltac:(eapply (s_want _ _ _ _ _ 0%nat); reflexivity).
  tr ltac:(eapply (s_lock _ _ _ _ _ 0%nat); [reflexivity|noreaders]).
  pp ltac:(s_begin (env_at 5) o0). pp ltac:(s_end).
  eapply (srun_crit _ _ _ 0%nat w0 E0 s0 ROk) in Hr; [|reflexivity|exact E0_env|done|exact w0_s0|exact P0|done|].
  2: { rewrite L0. apply (dr_watch [] []). constructor. }
  tr ltac:(eapply (s_unlock _ _ _ _ _ 0%nat); reflexivity).
  tr ltac:(eapply (s_ret _ _ _ _ _ 0%nat); reflexivity).
  pose proof Hr as Hr0. eexists _, _.
  eexists _, _. split; [exact Hr0|clear Hr0].
  pp ltac:(s_report 5%positive InCreate (b "x") 1%Z). pp ltac:(s_read 1%nat).
  tr ltac:(eapply (s_call _ _ _ _ _ (NStop 2)); exact (stop_ok 2)).
  pp ltac:(s_give 0%nat).
  tr ltac:(eapply (s_want _ _ _ _ _ 1%nat); reflexivity).
  pp ltac:(s_trans 0%nat).
  tr ltac:(eapply (s_lock _ _ _ _ _ 1%nat); [reflexivity|noreaders]).
  eapply (srun_send _ _ _ 0%nat e0) in Hr; [|eapply s_report; [done|simpl; unfold buffer; lia]|eapply pstep_eq; [s_sent 0%nat|sh|sh]].
  eapply (srun_crit _ _ _ 1%nat (NStop 2) E0 s1 ROk) in Hr; [|reflexivity|exact E0_env|exact E0_reliable|exact s0_s1|exact P1|done|].
  2: { rewrite L1. apply (dr_watch [] []). constructor. }
  tr ltac:(eapply s_take; reflexivity).
  tr ltac:(eapply (s_unlock _ _ _ _ _ 1%nat); reflexivity).
  pp ltac:(s_done 0%nat).
  tr ltac:(eapply (s_rlock _ _ _ _ _ 2%nat (ie_info e0) E0); [reflexivity|done|exact E0_env|exact s1_e0]).
  tr ltac:(eapply (s_offer _ _ _ _ _ 2%nat _ 1%positive _ _ true); reflexivity).
  tr ltac:(eapply (s_ret _ _ _ _ _ 1%nat); reflexivity).
  tr ltac:(eapply (s_runlock _ _ _ _ _ 2%nat); reflexivity).
  split; [exact Hr|]. split.
  - split; [apply map_to_list_empty_iff; vm_compute; reflexivity|repeat split].
  - split; [reflexivity|split; [reflexivity|repeat constructor]].
Qed.
Transparent s0 s1.
Local Instance proper_dec x : Decision (proper x).
Proof. unfold proper. apply _. Defined.
Example C91_ex : ∃ c s c' s', srun ex_upto c s ∧ stays [] 0 (pth "a/b") false 1 ICreate ex_l2 [] (ex_rep :: ex_l4) c' s' ∧
  at_rest c' s' ∧ at_path ex_upto (pth "a/b") 5 ∧ proper (b "x") ∧ stands_for ICreate 8 ∧ InCreate = 2 ^ 8.
Proof.
  destruct ex_run as (c&s&c'&s'&Hr0&Hr&Hq). exists c, s, c', s'.
  assert (Forall proper (pth "a/b")) as Hp by (apply (bool_decide_unpack _); by vm_compute).
  assert (proper (b "x")) as Hx by (apply (bool_decide_unpack _); by vm_compute).
  split_and!; try done.
  - split_and!; try done.
    + split.
      * intros E p e rs Hin. exists (pth "a/b"). split_and!; [done|done|]. unfold upto, ex_l2, ex_l4, o0 in Hin. cbn in Hin.
        repeat (apply elem_of_cons in Hin as [Hin|Hin]; [first [discriminate Hin|injection Hin as -> -> -> ->; by vm_compute]|]). by apply elem_of_nil in Hin.
      * intros f ev isdir cookie name r rs Hin. right. unfold upto, ex_l2, ex_l4, ex_rep in Hin. cbn in Hin.
        repeat (apply elem_of_cons in Hin as [Hin|Hin]; [first [discriminate Hin|injection Hin as -> -> -> -> -> -> ->; done]|]). by apply elem_of_nil in Hin.
    + apply orderly_check. intros k x Hk. do 1 (destruct k as [|k]; [injection Hk as <-; by vm_compute|]). done.
    + intros k Hk. exfalso. unfold upto, ex_l2, ex_l4 in Hk. cbn in Hk. repeat (apply elem_of_cons in Hk as [Hk|Hk]; [discriminate Hk|]). by apply elem_of_nil in Hk.
    + intros ei q Hk. exfalso. unfold upto, ex_l2, ex_l4 in Hk. cbn in Hk. repeat (apply elem_of_cons in Hk as [Hk|Hk]; [discriminate Hk|]). by apply elem_of_nil in Hk.
  - left. exists (0x100 .| 0x80). split; [by left|by vm_compute].
Qed.
(** ** An instance with a directory that is created *)
(** Channel 1 watches /a with everything below for Create; the directory /a/n is made, and
    once that is processed a file x in it. *)
Definition F0 : gset path := {[ pth "a" ]}.
Definition F1 : gset path := {[ pth "a"; pth "a/n" ]}.
Lemma F0_ok : dirs_ok slash F0.
Proof. apply dirs_okb_ok. by vm_compute. Qed.
Lemma F1_ok : dirs_ok slash F1.
Proof. apply dirs_okb_ok. by vm_compute. Qed.
Definition G0 : env := mkenv linux F0 allok.
Definition G1 : env := mkenv linux F1 allok.
Definition w2 : nop := NWatch (pth "a") true 1 ICreate.
Definition t0 : st := (nstep slash G0 init_st w2).1.
Definition en : ievent := IE 1 (InCreate .| IN_ISDIR) 0 (b "/a/n") ICreate.
Definition t1 : st := nr_internal G1 t0 (ie_info en).
Definition ex : ievent := IE 2 InCreate 0 (b "/a/n/x") ICreate.
Definition o1 : iop := IWatch (b "/a") ICreate.
Definition o2 : iop := IWatch (b "/a/n") ICreate.
Lemma w2_t0 : nstep slash G0 init_st w2 = (t0, ROk).
Proof. assert ((nstep slash G0 init_st w2).2 = ROk) as H by (by vm_compute). unfold t0. by rewrite <-(pair_snd _ _ H). Qed.
Lemma t0_en : nr_dispatch G0 (st_tree t0) (ie_info en) = ([KUser 1], true).
Proof. by vm_compute. Qed.
Lemma t0_t1 : nr_internal G1 t0 (ie_info en) = t1.
Proof. done. Qed.
Lemma t1_ex : nr_dispatch G1 (st_tree t1) (ie_info ex) = ([KUser 1], false).
Proof. by vm_compute. Qed.
Lemma t_log : st_log t0 = [(WWatch (b "/a") ICreate, true)] ∧
  st_log t1 = [(WWatch (b "/a") ICreate, true); (WWatch (b "/a/n") ICreate, true)] ∧ st_panic t0 = false ∧ st_panic t1 = false.
Proof. by vm_compute. Qed.
Definition rn : raw := Raw 1 (InCreate .| IN_ISDIR) 0 (b "n").
Definition rx : raw := Raw 2 InCreate 0 (b "x").
Definition ex2_l2 : list slab := [STree LTau; STree LTau; SPipe (PBegin (env_at 5) o1 []); SPipe (PEnd (env_at 5) o1);
  STree (LCrit 0 w2 ROk); STree LTau].
Definition ex2_l3 : list slab := [SPipe (PReport 5 InCreate true 0 (b "n") rn [rn]); SPipe (PRead 0 [rn]); SPipe PTau; SPipe (PTrans 0);
  SSend 0 en; SPipe (PDone 0); STree (LTake 1 (ie_info en)); STree LTau; STree (LOffer 1 1 (ie_info en) true); STree LTau; STree LTau;
  STree LTau; STree LTau; STree LTau; SPipe (PBegin (env_at 6) o2 []); SPipe (PEnd (env_at 6) o2); STree (LInt (ie_info en)); STree LTau].
Definition ex2_rep : slab := SPipe (PReport 6 InCreate false 0 (b "x") rx [rx]).
Definition ex2_l4 : list slab := [STree LTau; SPipe (PRead 1 [rx]); SPipe PTau; SPipe (PTrans 1); SSend 1 ex; SPipe (PDone 1);
  STree (LTake 2 (ie_info ex)); STree LTau; STree (LOffer 2 1 (ie_info ex) true); STree LTau].
Notation ex2_upto := (upto [] 0 (pth "a") true 1 ICreate ex2_l2 ex2_l3).
Opaque t0 t1.
Local Ltac oth := idtac; match goal with Hr : srun _ _ _, Hf : frun _ _ _ _ _ |- _ =>
  eapply frun_other in Hf; [|exact Hr|cbn [c_st set_rec end_thr set_thr new_thr set_q set_st set_lock set_int]; reflexivity|intros ? ? ? Hz; discriminate Hz|intros ? Hz; discriminate Hz] end.
Local Ltac tro tac := tr tac; oth.
Local Ltac ppo tac := idtac; (match goal with Hr : srun _ _ _ |- _ => eapply srun_pipe in Hr; [|eapply pstep_eq; [tac|sh|sh]|intros ? ? Hz; discriminate Hz|first [intros Hz; exact (False_ind _ Hz)|intros _; left; exists 0%nat, w2; reflexivity|intros _; right; eexists; reflexivity]] end); oth.
Lemma ex2_run : ∃ tr D c s c' s', srun ex2_upto c s ∧ frun (ex2_upto ++ ex2_rep :: ex2_l4) tr D c' s' ∧ pth "a/n" ∈ D ∧ at_rest c' s'.
Proof.
  destruct t_log as (L0&L1&P0&P1).
  assert (nenv linux slash G0) as HG0 by apply mkenv_nenv, F0_ok. assert (nenv linux slash G1) as HG1 by apply mkenv_nenv, F1_ok.
  assert (reliable G1) as HR1 by apply reliable_allok. assert (os_good G0 w2) as HR0 by (split_and!; [done|apply (bool_decide_unpack _); by vm_compute|apply reliable_allok]).
  pose proof srun_init as Hr. pose proof (frun_init F0 F0_ok) as Hf.
  tro ltac:(eapply (s_call _ _ _ _ _ w2); split; [done|]; apply nop_okb_ok; by vm_compute).
  tro ltac:(eapply (s_want _ _ _ _ _ 0%nat); reflexivity).
  tro ltac:(eapply (s_lock _ _ _ _ _ 0%nat); [reflexivity|noreaders]).
  ppo ltac:(s_begin (env_at 5) o1). ppo ltac:(s_end).
  eapply (srun_crit _ _ _ 0%nat w2 G0 t0 ROk) in Hr; [|reflexivity|exact HG0|exact HR0|exact w2_t0|exact P0|done|].
  2: { rewrite L0. apply (dr_watch [] []). constructor. }
  eapply frun_call in Hf; [|exact Hr|exact HG0|exact HR0|apply mkenv_fs, F0_ok|exact w2_t0].
  tro ltac:(eapply (s_unlock _ _ _ _ _ 0%nat); reflexivity).
  tro ltac:(eapply (s_ret _ _ _ _ _ 0%nat); reflexivity).
  ppo ltac:(eapply (ps_report _ 5%positive InCreate true 0 (b "n")); [exists 1%Z; eexists; split_and!; [sh|by vm_compute|reflexivity]|by left]).
  ppo ltac:(s_read 1%nat). ppo ltac:(s_give 0%nat). ppo ltac:(s_trans 0%nat).
  eapply (srun_send _ _ _ 0%nat en) in Hr; [|eapply s_report; [done|simpl; unfold buffer; lia]|eapply pstep_eq; [s_sent 0%nat|sh|sh]]. oth.
  ppo ltac:(s_done 0%nat).
  tro ltac:(eapply s_take; reflexivity).
  tro ltac:(eapply (s_rlock _ _ _ _ _ 1%nat (ie_info en) G0); [reflexivity|done|exact HG0|exact t0_en]).
  tro ltac:(eapply (s_offer _ _ _ _ _ 1%nat _ 1%positive _ _ true); reflexivity).
  tro ltac:(eapply (s_runlock _ _ _ _ _ 1%nat); reflexivity).
  match type of Hr with srun _ (if true then ?x else ?y) _ => change (if true then x else y) with x in Hr, Hf end.
  tro ltac:(eapply (s_fwd _ _ _ _ _ 1%nat (ie_info en)); [reflexivity|apply Nat.ltb_lt; reflexivity]).
  tro ltac:(eapply s_recv; reflexivity).
  tro ltac:(eapply s_iwant; reflexivity).
  tro ltac:(eapply s_ilock; [reflexivity|noreaders]).
  ppo ltac:(s_begin (env_at 6) o2). ppo ltac:(s_end).
  eapply (srun_int _ _ _ (ie_info en) G1 t1) in Hr; [|reflexivity|exact HG1|exact HR1|exact t0_t1|exact P1|done|].
  2: { rewrite L1. apply (dr_watch [(WWatch (b "/a") ICreate, true)] [(env_at 5, o1, true)]). apply (dr_watch [] []). constructor. }
  eapply (frun_mkdir _ _ _ F1 (pth "a/n")) in Hf;
    [|exact Hr|by vm_compute|by vm_compute|exact HG1|exact HR1|exact F1_ok|apply mkenv_fs, F1_ok|apply (bool_decide_unpack _); by vm_compute
     |apply (bool_decide_unpack _); by vm_compute| |apply (bool_decide_unpack _); by vm_compute| |exact t0_t1].
  2: { intros q Hq HqD. assert (set_Forall (λ q, q ∉ F0 → pth "a/n" `prefix_of` q) F1) as H by (apply (bool_decide_unpack _); by vm_compute). by apply H. }
  2: { intros (p'&isrec&n&e&r&Hin&Hp)%touched_in. apply elem_of_cons in Hin as [Hin|Hin]; [|by apply elem_of_nil in Hin].
       injection Hin as -> _ _ _ _. revert Hp. apply (bool_decide_unpack _). by vm_compute. }
  tro ltac:(eapply s_iunlock; reflexivity).
  pose proof Hr as Hr0. eexists _, F1, _, _, _, _. split; [exact Hr0|clear Hr0].
  ppo ltac:(s_report 6%positive InCreate (b "x") 2%Z).
  tro ltac:(eapply s_idone; reflexivity).
  ppo ltac:(s_read 1%nat). ppo ltac:(s_give 0%nat). ppo ltac:(s_trans 0%nat).
  eapply (srun_send _ _ _ 1%nat ex) in Hr; [|eapply s_report; [done|simpl; unfold buffer; lia]|eapply pstep_eq; [s_sent 0%nat|sh|sh]]. oth.
  ppo ltac:(s_done 0%nat).
  tro ltac:(eapply s_take; reflexivity).
  tro ltac:(eapply (s_rlock _ _ _ _ _ 2%nat (ie_info ex) G1); [reflexivity|done|exact HG1|exact t1_ex]).
  tro ltac:(eapply (s_offer _ _ _ _ _ 2%nat _ 1%positive _ _ true); reflexivity).
  tro ltac:(eapply (s_runlock _ _ _ _ _ 2%nat); reflexivity).
  split; [exact Hf|]. split; [apply (bool_decide_unpack _); by vm_compute|]. split.
  - split; [apply map_to_list_empty_iff; vm_compute; reflexivity|repeat split].
  - split; [reflexivity|split; [reflexivity|repeat constructor]].
Qed.
Transparent t0 t1.
Example C91_below_ex : ∃ tr D c s c' s', srun ex2_upto c s ∧ stays [] 0 (pth "a") true 1 ICreate ex2_l2 ex2_l3 (ex2_rep :: ex2_l4) c' s' ∧
  at_rest c' s' ∧ frun (ex2_upto ++ ex2_rep :: ex2_l4) tr D c' s' ∧ pth "a/n" ∈ D ∧ pth "a" `prefix_of` pth "a/n" ∧
  there ex2_l2 ex2_l3 ex2_l4 (pth "a/n") ∧ at_path ex2_upto (pth "a/n") 6 ∧
  Forall proper (pth "a/n") ∧ proper (b "x") ∧ stands_for ICreate 8 ∧ InCreate = 2 ^ 8.
Proof.
  destruct ex2_run as (tr&D&c&s&c'&s'&Hr0&Hr&HD&Hq). exists tr, D, c, s, c', s'.
  assert (Forall proper (pth "a/n")) as Hp by (apply (bool_decide_unpack _); by vm_compute).
  assert (proper (b "x")) as Hx by (apply (bool_decide_unpack _); by vm_compute).
  assert (Forall proper (pth "a")) as Hpa by (apply (bool_decide_unpack _); by vm_compute).
  assert (proper (b "n")) as Hnn by (apply (bool_decide_unpack _); by vm_compute).
  split_and!; try done.
  - split_and!; try done.
    + by eapply frun_srun.
    + split.
      * intros E p e rs Hin. unfold upto, ex2_l2, ex2_l3, ex2_l4, o1, o2 in Hin. cbn in Hin.
        repeat (apply elem_of_cons in Hin as [Hin|Hin]; [first [discriminate Hin|injection Hin as -> -> -> ->]|]); [| |by apply elem_of_nil in Hin].
        -- exists (pth "a"). split_and!; [done|done|by vm_compute].
        -- exists (pth "a/n"). split_and!; [done|done|by vm_compute].
      * intros f ev isdir cookie name r rs Hin. right. unfold upto, ex2_l2, ex2_l3, ex2_l4, ex2_rep in Hin. cbn in Hin.
        repeat (apply elem_of_cons in Hin as [Hin|Hin]; [first [discriminate Hin|injection Hin as -> -> -> -> -> -> ->; done]|]). by apply elem_of_nil in Hin.
    + apply orderly_check. intros k x Hk. do 2 (destruct k as [|k]; [injection Hk as <-; by vm_compute|]). done.
    + intros k Hk. exfalso. unfold upto, ex2_l2, ex2_l3, ex2_l4 in Hk. cbn in Hk. repeat (apply elem_of_cons in Hk as [Hk|Hk]; [discriminate Hk|]). by apply elem_of_nil in Hk.
    + intros ei q Hk He. exfalso. unfold upto, ex2_l2, ex2_l3, ex2_l4 in Hk. cbn in Hk.
      repeat (apply elem_of_cons in Hk as [Hk|Hk]; [first [discriminate Hk|injection Hk as ->; revert He; by vm_compute]|]). by apply elem_of_nil in Hk.
  - apply (bool_decide_unpack _). by vm_compute.
  - right. exists (take 16 ex2_l3), (ie_info en), [STree LTau]. split; [done|]. intros ei p Hin. exfalso. unfold ex2_l4 in Hin. cbn in Hin.
    repeat (apply elem_of_cons in Hin as [Hin|Hin]; [discriminate Hin|]). by apply elem_of_nil in Hin.
  - left. exists (0x100 .| 0x80). split; [by left|by vm_compute].
Qed.
Print Assumptions C91_set.
Print Assumptions C91_below_set.
Print Assumptions C91_below_ex.
Print Assumptions C91_reported.
Print Assumptions C91_delivered.
Print Assumptions C91_delivered_self.
Print Assumptions C91_below_reported.
Print Assumptions C91_below_delivered.
Print Assumptions C91_below_delivered_self.
Print Assumptions C91_only.
Print Assumptions C91_ex.
