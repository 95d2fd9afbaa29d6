(** * C93: kqueue: from the kernel's note to the user's channel, all goroutines interleaved *)
From Verif Require Import Base Event Watchpoint WatchpointFacts Paths PathsFacts Loop Node SpecTree NonRec SpecNonRec SpecNonRecOS SpecOS
  Clean SpecClean CleanFacts Trigger SpecTrigger TriggerFacts SpecKq KqMon KqMonFacts KqCreate KqGone
  TreeConc SpecTreeConc TreeConcFacts SpecTreeDeliver TreeDeliverFacts Prop_TreeConc Prop_TreeDeliver BsdConc BsdConcFacts.
From Verif Require Import TriggerEx NonRecRun.
From Verif Require SpecTriggerFds LinuxConcFacts NonRecReg NonRecRun Prop_NonRec Prop_Kq Prop_Linux Prop_KqMon.
Local Open Scope N_scope.
Notation ok := NonRec.ROk.

(** ** Nothing is lost *)
Section after_watch.
Context (l1 : list blab) (i : nat) (p : path) (isrec : bool) (n : positive) (e : N) (l2 : list blab).
Notation w := (NWatch p isrec n e).
(** [l1], then a call of Watch without error, up to the moment it has its effect. *)
Definition watched : list blab := l1 ++ BTree (LCall i w) :: l2 ++ [BTree (LCrit i w ok)].
(** The run goes on from there with [l], and nothing ends the watch: no Stop of the channel
    is called that had not returned when Watch was called, no removal of [p] or of a
    directory above is processed, and the watcher leaves the descriptor of [q] open. *)
Definition stays (q : str) (l : list blab) : Prop :=
  no_stop_since (btrees l1) (btrees (watched ++ l)) n ∧ not_removed kqueue slash (btrees (watched ++ l)) p ∧
  ∀ x, BKq x ∈ l → spares x q.
(** The watcher's calls so far were usual ones (C72), [a] has not been reported gone; [q] is
    [a], or in the last listing of the directory [a] and not reported gone; and a file. *)
Definition usual (a : path) (q : str) (B : bst) : Prop := ∃ ty L r, kdrives kq ty (st_log (c_st (b_c B))) L r (k_t (b_k B)) ∧
  direct r (render slash a) ≠ 0 ∧ (q = render slash a ∨ L q) ∧ ty q = false.
Lemma sound_before after : sound (watched ++ after) → sound (l1 ++ BTree (LCall i w) :: l2).
Proof.
  intros Hso z Hz. apply Hso. unfold watched. rewrite elem_of_app in Hz |- *. rewrite elem_of_cons in Hz. left. rewrite elem_of_app, elem_of_cons, elem_of_app. naive_solver.
Qed.
Lemma usual_entry a d y x B ty L r : let q := render slash (d ++ [y]) in
  kdrives kq ty (st_log (c_st (b_c B))) L r (k_t (b_k B)) → log_legal kqueue (st_log (c_st (b_c B))) → incl_ev x (direct r (render slash a)) → x ≠ 0 →
  q = render slash a ∨ L q → ty q = false → a = d ++ [y] ∨ a = d → d ≠ [] → Forall proper d → proper y →
  ∃ w0, tw_at (k_t (b_k B)) q = Some w0 ∧ incl_ev x (tw_e w0) ∧ tw_dir w0 = false.
Proof.
  intros q Hkd Hleg Hxd Hx0 HL Hty Hpd Hd0 Hd Hy.
  assert (Forall proper a) as Hp by (destruct Hpd as [-> | ->]; [apply Forall_app; split; [done|by repeat constructor; apply Hy]|done]).
  destruct (role_entry _ ty L r _ q x Hkd Hx0) as (w1&Hw1&Hxw&Hd1); [|rewrite Hty in Hd1; by exists w1].
  destruct Hpd as [Hpd|Hpd]; [left; unfold q; by rewrite <-Hpd|]. destruct HL as [HL|HL]; [left; by rewrite HL|]. right.
  intros k Hk. eapply (KqFacts.kdrives_listed kq ty kqueue _ L r _ (render slash a) q Hkd Hleg); [|done|by apply Hxd].
  exists d, y. rewrite Hpd. split_and!; [done|done|by rewrite Prop_Linux.topath_render|]. unfold q. rewrite Prop_Linux.topath_render; [done|by destruct d].
Qed.
Lemma delivered l3 l4 fd ge l5 B1 B d y x :
  let q := render slash (d ++ [y]) in
  let after := l3 ++ BTree (LRet i w ok) :: l4 ++ BKq (KNote fd ge q) :: l5 in
  bruns binit watched B1 → (∃ w0, tw_at (k_t (b_k B1)) q = Some w0 ∧ incl_ev x (tw_e w0) ∧ tw_dir w0 = false) →
  bruns B1 after B → at_rest B →
  stays q after → sound (watched ++ after) → (∀ ev isd, BSend (TE q ev isd) ∈ after → incl_ev ev e) →
  p = d ++ [y] ∨ p = d ∨ isrec = true ∧ p `prefix_of` d → d ≠ [] → Forall proper d → proper y →
  SpecTrigger.reported kq ge x → x ≠ 0 →
  ∃ j ev taken, incl_ev x ev ∧ BTree (LOffer j n (EI ev q (Some false) fTypeUnknown) taken) ∈ l5.
Proof.
  intros q af H1 (w1&Hw1&Hxw&Hd1) H2 (Hq&Hpe&Hmo&Hou) (Hno&Hrm&Hsp) Hso Hal Hpd Hd0 Hd Hy Hx Hx0.
  pose proof (bruns_join _ _ _ _ _ H1 H2) as Hall.
  (* the state at the note *)
  assert (af = (l3 ++ BTree (LRet i w ok) :: l4) ++ BKq (KNote fd ge q) :: l5) as Eaf by (unfold af; by rewrite <-app_assoc).
  rewrite Eaf in H2. apply bruns_app in H2 as (B2&H2&H3).
  pose proof (bruns_krun _ _ H1) as Hk1. pose proof (bruns_kruns _ _ _ H2) as Hk2. pose proof (bruns_kruns _ _ _ H3) as Hk3.
  destruct (kruns_tw _ _ _ _ q w1 Hk1 Hk2) as (w2&Hw2&Hi2&Hd2); [|done|].
  { intros z Hz%bkqs_elem. apply Hsp. rewrite Eaf. apply elem_of_app. by left. }
  rewrite Hd1 in Hd2. rewrite bkqs_kq in Hk3.
  destruct (Prop_KqMon.C92_reported_partial _ _ w2 fd ge q (bkqs l5) _ x (kruns_krun _ _ _ _ Hk1 Hk2) Hw2 Hd2 Hk3)
    as (u&st&A&ord&g&ev&v&Hl5&Hxev); try done.
  { intros z Hz%bkqs_elem. apply Hsp. rewrite Eaf. apply elem_of_app. right. by right. }
  { intros k Hk. by apply Hi2, Hxw. }
  apply bkqs_split in Hl5 as (a&b&->&_&_).
  (* it is sent *)
  rewrite app_comm_cons in H3. apply bruns_app in H3 as (B3&H3&H4). inversion H4 as [|? ? B4 ? ? Hs4 H5]; subst B3.
  assert (TE q ev false ∈ b_out B4) as Hout by (inversion Hs4; subst; cbn [b_out]; by apply elem_of_list_singleton).
  destruct (out_sent _ _ _ _ H5 Hout Hou) as (u'&v'&->).
  set (z := TE q ev false) in *.
  assert (BSend z ∈ af) as Hz. { rewrite Eaf. apply elem_of_app. right. right. apply elem_of_app. right. right. apply elem_of_app. right. by left. }
  assert (nreport_ok kqueue slash (te_info z)) as (Hz0&Hzo&_) by (apply Hso, elem_of_app; by right).
  pose proof (bruns_nrun _ _ Hall Hso) as Hr.
  assert (btrees (watched ++ af) = btrees l1 ++ LCall i w :: btrees (l2 ++ BTree (LCrit i w ok) :: l3) ++ LRet i w ok :: (btrees l4 ++ btrees a ++ btrees u') ++ LReport (te_info z) :: btrees v') as Heq.
  { unfold watched, af. repeat (rewrite ?btrees_app, ?btrees_tree, ?btrees_kq, ?btrees_send, <-?app_assoc; cbn [app]). done. }
  rewrite Heq in Hr, Hno, Hrm.
  destruct (C89_delivered kqueue kq_ok eq_refl slash _ _ _ _ _ _ _ _ _ _ _ d y Hr Hq) as (j&tk&Hin); [| |done|done|].
  - by apply (Prop_Kq.kreported_info kq ltac:(by left)).
  - split; [by eapply Hal|]. exact Hpd.
  - exists j, ev, tk. split; [done|]. apply btrees_elem in Hin; [|done].
    apply elem_of_app. right. right. apply elem_of_app. right. by right.
Qed.

(** Something the Watch asks for happens after it has returned to the watched file, or to a
    file in the watched directory that was there when the directory was last listed: by the
    time nothing is left to do the channel is offered an event that has it, with the path of
    the file, whatever else is called and happens meanwhile, and whatever the schedule.
    Partial: if what the watcher sends for the file has nothing the channel did not ask for
    (see C72_merged_refuted), and for notes about files only. *)
Theorem C93_delivered_partial l3 l4 fd ge l5 B1 B d y x :
  let q := render slash (d ++ [y]) in
  let after := l3 ++ BTree (LRet i w ok) :: l4 ++ BKq (KNote fd ge q) :: l5 in
  bruns binit watched B1 → usual p q B1 → bruns B1 after B → at_rest B →
  stays q after → sound (watched ++ after) → (∀ ev isd, BSend (TE q ev isd) ∈ after → incl_ev ev e) →
  p = d ++ [y] ∨ p = d → d ≠ [] → Forall proper d → proper y →
  SpecTrigger.reported kq ge x → x ≠ 0 → incl_ev x e → disj_ev x (internal kqueue) →
  ∃ j ev taken, incl_ev x ev ∧ BTree (LOffer j n (EI ev q (Some false) fTypeUnknown) taken) ∈ l5.
Proof.
  intros q af H1 (ty&L&r&Hkd&Hdir&HL&Hty) H2 Hrest Hst Hso Hal Hpd Hd0 Hd Hy Hx Hx0 Hxe Hxi.
  assert (Forall proper p) as Hp by (destruct Hpd as [-> | ->]; [apply Forall_app; split; [done|by repeat constructor; apply Hy]|done]).
  assert (p ≠ []) as Hp0 by (destruct Hpd as [-> | ->]; [by destruct d|done]).
  destruct (effect_direct (l1 ++ BTree (LCall i w) :: l2) i p isrec n e B1 ty L r x) as (Hleg&Hxd); try done.
  { rewrite <-app_assoc. exact H1. }
  { by eapply sound_before. }
  { by destruct (Prop_Linux.proper_upath p Hp0 Hp) as (_&?&_). }
  eapply delivered; try done; [|by destruct Hpd as [?|?]; [left|right; left]].
  by eapply (usual_entry p d y x B1 ty L r).
Qed.
(** The same for the files in every directory below a recursive Watch: [D] are the
    directories there are when the Watch has its effect, [tr] what the tree has done so far. *)
Theorem C93_below_partial tr D l3 l4 fd ge l5 B1 B d y x :
  let q := render slash (d ++ [y]) in
  let after := l3 ++ BTree (LRet i w ok) :: l4 ++ BKq (KNote fd ge q) :: l5 in
  bfrun watched tr D B1 → isrec = true → d ∈ D → p `prefix_of` d → usual d q B1 → bruns B1 after B → at_rest B →
  stays q after → sound (watched ++ after) → (∀ ev isd, BSend (TE q ev isd) ∈ after → incl_ev ev e) →
  d ≠ [] → Forall proper d → proper y →
  SpecTrigger.reported kq ge x → x ≠ 0 → incl_ev x e →
  ∃ j ev taken, incl_ev x ev ∧ BTree (LOffer j n (EI ev q (Some false) fTypeUnknown) taken) ∈ l5.
Proof.
  intros q af H1 Hrec HdD Hpd (ty&L&r&Hkd&Hdir&HL&Hty) H2 Hrest Hst Hso Hal Hd0 Hd Hy Hx Hx0 Hxe.
  destruct (effect_below (l1 ++ BTree (LCall i w) :: l2) i p n e tr D B1 ty L r d) as (Hleg&Hxd); try done.
  { rewrite <-app_assoc. unfold watched in H1. rewrite Hrec in H1. rewrite Hrec. exact H1. }
  { by eapply sound_before. }
  eapply delivered; try done; [by eapply bfrun_bruns| |by right; right].
  eapply (usual_entry d d y x B1 ty L r); try done; [|by right]. intros k Hk. by apply Hxd, Hxe.
Qed.
(** ** What appears in a watched directory *)
(** The watcher's calls so far were usual ones (C72), and [a] is a directory that has not been
    reported gone. *)
Definition usual_dir (a : path) (B : bst) : Prop := ∃ ty L r, kdrives kq ty (st_log (c_st (b_c B))) L r (k_t (b_k B)) ∧
  direct r (render slash a) ≠ 0 ∧ ty (render slash a) = true.
Lemma created_offered l3 l4 fd ge l5 B1 B2 B d y :
  let a := render slash d in let q := render slash (d ++ [y]) in
  let before := l3 ++ BTree (LRet i w ok) :: l4 in let after := before ++ BKq (KNote fd ge a) :: l5 in
  bruns binit watched B1 → (∃ w0, tw_at (k_t (b_k B1)) a = Some w0 ∧ incl_ev (Create kqueue) (tw_eDir w0) ∧ tw_dir w0 = true) →
  bruns B1 before B2 → tw_at (k_t (b_k B2)) q = None → bruns B2 (BKq (KNote fd ge a) :: l5) B → at_rest B →
  stays a after → sound (watched ++ after) → p = d ∨ isrec = true ∧ p `prefix_of` d → d ≠ [] → Forall proper d → proper y →
  incl_ev (Create kqueue) e → ge .& t_write kq ≠ 0 →
  (∀ x, BKq x ∈ l5 → (∃ A, scans x a A ∧ finds A a y) ∨ (∀ A, ¬ scans x a A) ∧ leaves_out x q) →
  ∃ j isd taken, BTree (LOffer j n (EI (Create kqueue) q (Some isd) fTypeUnknown) taken) ∈ l5.
Proof.
  intros a q bf af H1 (w1&Hw1&Hcw&Hd1) H2 Hq2 H3 (Hq&Hpe&Hmo&Hou) (Hno&Hrm&Hsp) Hso Hpd Hd0 Hd Hy Hce Hwr Hl.
  pose proof (bruns_join _ _ _ _ _ H2 H3) as H23. pose proof (bruns_join _ _ _ _ _ H1 H23) as Hall.
  pose proof (bruns_krun _ _ H1) as Hk1. pose proof (bruns_kruns _ _ _ H2) as Hk2. pose proof (bruns_kruns _ _ _ H3) as Hk3.
  destruct (kruns_direct _ _ _ _ a w1 Hk1 Hk2) as (w2&Hw2&Hi2&Hd2&_); [|done|].
  { intros z Hz%bkqs_elem. apply Hsp. apply elem_of_app. by left. }
  rewrite Hd1 in Hd2. rewrite bkqs_kq in Hk3.
  assert (a = topath d) as Ea by (by rewrite Prop_Linux.topath_render).
  assert (q = join (topath d) y) as Eq.
  { destruct (Prop_Linux.joined d y Hd0 Hd Hy) as [_ Hj]. unfold q. rewrite <-Hj. by rewrite Prop_Linux.topath_render. }
  destruct (Prop_KqMon.C92_created_partial _ _ w2 fd ge d y (bkqs l5) (b_k B) Hd (kruns_krun _ _ _ _ Hk1 Hk2))
    as (u&st&A&ord&k&g&evn&v&isd&Hl5&Hev); rewrite <-?Eq, <-?Ea; try done.
  { intros Hz. apply (has_0 8). rewrite <-Hz. apply has_land. assert (has (Create kqueue) 8) as Hc8 by (by vm_compute). split; [by apply Hi2, Hcw|done]. }
  { intros z Hz%bkqs_elem. apply Hsp. apply elem_of_app. right. by right. }
  { intros z Hz%bkqs_elem. by apply Hl. }
  rewrite <-Ea in Hl5. rewrite <-Eq in Hev.
  apply bkqs_split in Hl5 as (a'&b'&->&_&_).
  rewrite app_comm_cons in H3. apply bruns_app in H3 as (B3&H3&H4). inversion H4 as [|? ? B4 ? ? Hs4 H5]; subst B3.
  assert (TE q (Create kqueue) isd ∈ b_out B4) as Hout by (inversion Hs4; subst; cbn [b_out]; exact Hev).
  destruct (out_sent _ _ _ _ H5 Hout Hou) as (u'&v'&->).
  set (z := TE q (Create kqueue) isd) in *.
  pose proof (bruns_nrun _ _ Hall Hso) as Hr.
  assert (btrees (watched ++ af) = btrees l1 ++ LCall i w :: btrees (l2 ++ BTree (LCrit i w ok) :: l3) ++ LRet i w ok :: (btrees l4 ++ btrees a' ++ btrees u') ++ LReport (te_info z) :: btrees v') as Heq.
  { unfold watched, af, bf. repeat (rewrite ?btrees_app, ?btrees_tree, ?btrees_kq, ?btrees_send, <-?app_assoc; cbn [app]). done. }
  change (watched ++ bf ++ _) with (watched ++ af) in Hr. rewrite Heq in Hr, Hno, Hrm.
  destruct (C89_delivered kqueue kq_ok eq_refl slash _ _ _ _ _ _ _ _ _ _ _ d y Hr Hq) as (j&tk&Hin); [| |done|done|].
  - apply (Prop_Kq.kreported_info kq ltac:(by left)); try done. apply land_zero_disj. by vm_compute.
  - split; [exact Hce|]. by right.
  - exists j, isd, tk. apply btrees_elem in Hin; [|done]. apply elem_of_app. right. right. apply elem_of_app. right. by right.
Qed.
Lemma dir_entry log ty L r ts a x : kdrives kq ty log L r ts → x ≠ 0 → incl_ev x (direct r a) → ty a = true →
  ∃ w0, tw_at ts a = Some w0 ∧ incl_ev x (tw_eDir w0) ∧ tw_dir w0 = true.
Proof.
  intros Hk Hx0 Hx Hty. destruct (role_entry log ty L r ts a x Hk Hx0) as (w0&Hw&_&Hd); [by left|].
  destruct (KqFacts.kdrives_entry kq ty _ _ _ _ _ _ Hk Hw) as (_&_&He&_). exists w0. rewrite He, Hd. done.
Qed.
(** Something appears in the directory given to a Watch for Create after it has returned, and
    the OS reports the directory written to; the watcher does not know it yet, finds it
    whenever it lists the directory from there on, and nobody else makes the watcher open it:
    by the time nothing is left to do the channel is offered a Create with its path.
    C93_created_refuted shows that the last condition is needed. *)
Theorem C93_created_partial l3 l4 fd ge l5 B1 B2 B y :
  let a := render slash p in let q := render slash (p ++ [y]) in
  let before := l3 ++ BTree (LRet i w ok) :: l4 in let after := before ++ BKq (KNote fd ge a) :: l5 in
  bruns binit watched B1 → usual_dir p B1 →
  bruns B1 before B2 → tw_at (k_t (b_k B2)) q = None → bruns B2 (BKq (KNote fd ge a) :: l5) B → at_rest B →
  stays a after → sound (watched ++ after) → p ≠ [] → Forall proper p → proper y →
  incl_ev (Create kqueue) e → ge .& t_write kq ≠ 0 →
  (∀ x, BKq x ∈ l5 → (∃ A, scans x a A ∧ finds A a y) ∨ (∀ A, ¬ scans x a A) ∧ leaves_out x q) →
  ∃ j isd taken, BTree (LOffer j n (EI (Create kqueue) q (Some isd) fTypeUnknown) taken) ∈ l5.
Proof.
  intros a q bf af H1 (ty&L&r&Hkd&Hdir&Hty) H2 Hq2 H3 Hrest Hst Hso Hp0 Hp Hy Hce Hwr Hl.
  eapply created_offered; try done; [|by left].
  destruct (effect_direct (l1 ++ BTree (LCall i w) :: l2) i p isrec n e B1 ty L r (Create kqueue)) as (Hleg&Hxd); try done.
  { rewrite <-app_assoc. exact H1. }
  { by eapply sound_before. }
  { by destruct (Prop_Linux.proper_upath p Hp0 Hp) as (_&?&_). }
  { apply land_zero_disj. by vm_compute. }
  by eapply dir_entry.
Qed.
(** The same for every directory [d] there is below a recursive Watch. *)
Theorem C93_created_below_partial tr D l3 l4 fd ge l5 B1 B2 B d y :
  let a := render slash d in let q := render slash (d ++ [y]) in
  let before := l3 ++ BTree (LRet i w ok) :: l4 in let after := before ++ BKq (KNote fd ge a) :: l5 in
  bfrun watched tr D B1 → isrec = true → d ∈ D → p `prefix_of` d → usual_dir d B1 →
  bruns B1 before B2 → tw_at (k_t (b_k B2)) q = None → bruns B2 (BKq (KNote fd ge a) :: l5) B → at_rest B →
  stays a after → sound (watched ++ after) → d ≠ [] → Forall proper d → proper y →
  incl_ev (Create kqueue) e → ge .& t_write kq ≠ 0 →
  (∀ x, BKq x ∈ l5 → (∃ A, scans x a A ∧ finds A a y) ∨ (∀ A, ¬ scans x a A) ∧ leaves_out x q) →
  ∃ j isd taken, BTree (LOffer j n (EI (Create kqueue) q (Some isd) fTypeUnknown) taken) ∈ l5.
Proof.
  intros a q bf af H1 Hrec HdD Hpd (ty&L&r&Hkd&Hdir&Hty) H2 Hq2 H3 Hrest Hst Hso Hd0 Hd Hy Hce Hwr Hl.
  eapply created_offered; try done; [by eapply bfrun_bruns| |by right].
  destruct (effect_below (l1 ++ BTree (LCall i w) :: l2) i p n e tr D B1 ty L r d) as (Hleg&Hxd); try done.
  { rewrite <-app_assoc. unfold watched in H1. rewrite Hrec in H1. rewrite Hrec. exact H1. }
  { by eapply sound_before. }
  eapply dir_entry; [done|done| |done]. intros k Hk. by apply Hxd, Hce.
Qed.
(** ** What goes away *)
Lemma gone_offered l3 l4 fd ge l5 B1 B2 B d y x isd :
  let q := render slash (d ++ [y]) in
  let before := l3 ++ BTree (LRet i w ok) :: l4 in let after := before ++ BKq (KNote fd ge q) :: l5 in
  bruns binit watched B1 → (∃ w0, tw_at (k_t (b_k B1)) q = Some w0 ∧ incl_ev x (tw_e w0) ∧ tw_dir w0 = isd) →
  bruns B1 before B2 → none_gone (b_k B2) fd → bruns B2 (BKq (KNote fd ge q) :: l5) B → at_rest B →
  no_stop_since (btrees l1) (btrees (watched ++ after)) n → not_removed kqueue slash (btrees (watched ++ after)) p →
  (∀ z, BKq z ∈ before → spares z q) → (∀ z, BKq z ∈ l5 → spares z q ∨ gives_up z q) →
  sound (watched ++ after) → (∀ ev b, BSend (TE q ev b) ∈ after → incl_ev ev e) →
  p = d ++ [y] ∨ p = d ∨ isrec = true ∧ p `prefix_of` d → d ≠ [] → Forall proper d → proper y →
  ge .& native_gone kq ≠ 0 → SpecTrigger.reported kq ge x → x ≠ 0 → (isd = true → disj_ev x (Write kqueue .| t_write kq)) →
  ∃ j ev taken, incl_ev x ev ∧ BTree (LOffer j n (EI ev q (Some isd) fTypeUnknown) taken) ∈ l5.
Proof.
  intros q bf af H1 (w1&Hw1&Hcw&Hd1) H2 Hng H3 (Hq&Hpe&Hmo&Hou) Hno Hrm Hsp1 Hsp2 Hso Hal Hpd Hd0 Hd Hy Hgo Hx Hx0 Hwr.
  pose proof (bruns_join _ _ _ _ _ H2 H3) as H23. pose proof (bruns_join _ _ _ _ _ H1 H23) as Hall.
  pose proof (bruns_krun _ _ H1) as Hk1. pose proof (bruns_kruns _ _ _ H2) as Hk2. pose proof (bruns_kruns _ _ _ H3) as Hk3.
  destruct (kruns_tw _ _ _ _ q w1 Hk1 Hk2) as (w2&Hw2&Hi2&Hd2); [|done|].
  { intros z Hz%bkqs_elem. by apply Hsp1. }
  rewrite Hd1 in Hd2. rewrite bkqs_kq in Hk3.
  destruct (Prop_KqMon.C92_gone_partial _ _ w2 fd ge q (bkqs l5) (b_k B) x (kruns_krun _ _ _ _ Hk1 Hk2) Hw2 Hng Hk3)
    as (u&st&A&ord&g&evn&v&ev&Hl5&Hev&Hxev); try done.
  { intros z Hz%bkqs_elem. by apply Hsp2. }
  { intros k Hk. by apply Hi2, Hcw. }
  { by rewrite Hd2. }
  rewrite Hd2 in Hev. apply bkqs_split in Hl5 as (a'&b'&->&_&_).
  rewrite app_comm_cons in H3. apply bruns_app in H3 as (B3&H3&H4). inversion H4 as [|? ? B4 ? ? Hs4 H5]; subst B3.
  assert (TE q ev isd ∈ b_out B4) as Hout by (inversion Hs4; subst; cbn [b_out]; exact Hev).
  destruct (out_sent _ _ _ _ H5 Hout Hou) as (u'&v'&->).
  set (z := TE q ev isd) in *.
  assert (BSend z ∈ af) as Hz. { apply elem_of_app. right. right. apply elem_of_app. right. right. apply elem_of_app. right. by left. }
  assert (nreport_ok kqueue slash (te_info z)) as (Hz0&Hzo&_) by (apply Hso, elem_of_app; by right).
  pose proof (bruns_nrun _ _ Hall Hso) as Hr.
  assert (btrees (watched ++ af) = btrees l1 ++ LCall i w :: btrees (l2 ++ BTree (LCrit i w ok) :: l3) ++ LRet i w ok :: (btrees l4 ++ btrees a' ++ btrees u') ++ LReport (te_info z) :: btrees v') as Heq.
  { unfold watched, af, bf. repeat (rewrite ?btrees_app, ?btrees_tree, ?btrees_kq, ?btrees_send, <-?app_assoc; cbn [app]). done. }
  change (watched ++ bf ++ _) with (watched ++ af) in Hr. rewrite Heq in Hr, Hno, Hrm.
  destruct (C89_delivered kqueue kq_ok eq_refl slash _ _ _ _ _ _ _ _ _ _ _ d y Hr Hq) as (j&tk&Hin); [| |done|done|].
  - by apply (Prop_Kq.kreported_info kq ltac:(by left)).
  - split; [by eapply Hal|]. exact Hpd.
  - exists j, ev, tk. split; [done|]. apply btrees_elem in Hin; [|done]. apply elem_of_app. right. right. apply elem_of_app. right. by right.
Qed.
(** The watched file, or a file listed in the watched directory, is removed or renamed, for
    the first time since its descriptor was opened: the channel is offered that, if it asks
    for it.  What comes after the note may be the processing of just that. *)
Theorem C93_gone_partial l3 l4 fd ge l5 B1 B2 B d y x :
  let q := render slash (d ++ [y]) in
  let before := l3 ++ BTree (LRet i w ok) :: l4 in let after := before ++ BKq (KNote fd ge q) :: l5 in
  bruns binit watched B1 → usual p q B1 →
  bruns B1 before B2 → none_gone (b_k B2) fd → bruns B2 (BKq (KNote fd ge q) :: l5) B → at_rest B →
  no_stop_since (btrees l1) (btrees (watched ++ after)) n → not_removed kqueue slash (btrees (watched ++ after)) p →
  (∀ z, BKq z ∈ before → spares z q) → (∀ z, BKq z ∈ l5 → spares z q ∨ gives_up z q) →
  sound (watched ++ after) → (∀ ev b, BSend (TE q ev b) ∈ after → incl_ev ev e) →
  p = d ++ [y] ∨ p = d → d ≠ [] → Forall proper d → proper y →
  ge .& native_gone kq ≠ 0 → SpecTrigger.reported kq ge x → x ≠ 0 → incl_ev x e → disj_ev x (internal kqueue) →
  ∃ j ev taken, incl_ev x ev ∧ BTree (LOffer j n (EI ev q (Some false) fTypeUnknown) taken) ∈ l5.
Proof.
  intros q bf af H1 (ty&L&r&Hkd&Hdir&HL&Hty) H2 Hng H3 Hrest Hno Hrm Hsp1 Hsp2 Hso Hal Hpd Hd0 Hd Hy Hgo Hx Hx0 Hxe Hxi.
  assert (Forall proper p) as Hp by (destruct Hpd as [-> | ->]; [apply Forall_app; split; [done|by repeat constructor; apply Hy]|done]).
  assert (p ≠ []) as Hp0 by (destruct Hpd as [-> | ->]; [by destruct d|done]).
  destruct (effect_direct (l1 ++ BTree (LCall i w) :: l2) i p isrec n e B1 ty L r x) as (Hleg&Hxd); try done.
  { rewrite <-app_assoc. exact H1. }
  { by eapply sound_before. }
  { by destruct (Prop_Linux.proper_upath p Hp0 Hp) as (_&?&_). }
  eapply gone_offered; try done; [|by destruct Hpd as [?|?]; [left|right; left]].
  by eapply (usual_entry p d y x B1 ty L r).
Qed.
(** ... and for the files in every directory below a recursive Watch (an instance is in
    BsdGoneEx.v). *)
Theorem C93_gone_below_partial tr D l3 l4 fd ge l5 B1 B2 B d y x :
  let q := render slash (d ++ [y]) in
  let before := l3 ++ BTree (LRet i w ok) :: l4 in let after := before ++ BKq (KNote fd ge q) :: l5 in
  bfrun watched tr D B1 → isrec = true → d ∈ D → p `prefix_of` d → usual d q B1 →
  bruns B1 before B2 → none_gone (b_k B2) fd → bruns B2 (BKq (KNote fd ge q) :: l5) B → at_rest B →
  no_stop_since (btrees l1) (btrees (watched ++ after)) n → not_removed kqueue slash (btrees (watched ++ after)) p →
  (∀ z, BKq z ∈ before → spares z q) → (∀ z, BKq z ∈ l5 → spares z q ∨ gives_up z q) →
  sound (watched ++ after) → (∀ ev b, BSend (TE q ev b) ∈ after → incl_ev ev e) →
  d ≠ [] → Forall proper d → proper y →
  ge .& native_gone kq ≠ 0 → SpecTrigger.reported kq ge x → x ≠ 0 → incl_ev x e →
  ∃ j ev taken, incl_ev x ev ∧ BTree (LOffer j n (EI ev q (Some false) fTypeUnknown) taken) ∈ l5.
Proof.
  intros q bf af H1 Hrec HdD Hpd (ty&L&r&Hkd&Hdir&HL&Hty) H2 Hng H3 Hrest Hno Hrm Hsp1 Hsp2 Hso Hal Hd0 Hd Hy Hgo Hx Hx0 Hxe.
  destruct (effect_below (l1 ++ BTree (LCall i w) :: l2) i p n e tr D B1 ty L r d) as (Hleg&Hxd); try done.
  { rewrite <-app_assoc. unfold watched in H1. rewrite Hrec in H1. rewrite Hrec. exact H1. }
  { by eapply sound_before. }
  eapply gone_offered; try done; [by eapply bfrun_bruns| |by right; right].
  eapply (usual_entry d d y x B1 ty L r); try done; [|by right]. intros k Hk. by apply Hxd, Hxe.
Qed.
(** The same for the watched directory itself; a Write is not reported then. *)
Theorem C93_gone_dir_partial l3 l4 fd ge l5 B1 B2 B d y x :
  let q := render slash (d ++ [y]) in
  let before := l3 ++ BTree (LRet i w ok) :: l4 in let after := before ++ BKq (KNote fd ge q) :: l5 in
  bruns binit watched B1 → usual_dir p B1 →
  bruns B1 before B2 → none_gone (b_k B2) fd → bruns B2 (BKq (KNote fd ge q) :: l5) B → at_rest B →
  no_stop_since (btrees l1) (btrees (watched ++ after)) n → not_removed kqueue slash (btrees (watched ++ after)) p →
  (∀ z, BKq z ∈ before → spares z q) → (∀ z, BKq z ∈ l5 → spares z q ∨ gives_up z q) →
  sound (watched ++ after) → (∀ ev b, BSend (TE q ev b) ∈ after → incl_ev ev e) →
  p = d ++ [y] → d ≠ [] → Forall proper d → proper y →
  ge .& native_gone kq ≠ 0 → SpecTrigger.reported kq ge x → x ≠ 0 → incl_ev x e → disj_ev x (internal kqueue) → disj_ev x (Write kqueue .| t_write kq) →
  ∃ j ev taken, incl_ev x ev ∧ BTree (LOffer j n (EI ev q (Some true) fTypeUnknown) taken) ∈ l5.
Proof.
  intros q bf af H1 (ty&L&r&Hkd&Hdir&Hty) H2 Hng H3 Hrest Hno Hrm Hsp1 Hsp2 Hso Hal Hpd Hd0 Hd Hy Hgo Hx Hx0 Hxe Hxi Hxw.
  assert (Forall proper p) as Hp by (rewrite Hpd; apply Forall_app; split; [done|by repeat constructor; apply Hy]).
  assert (p ≠ []) as Hp0 by (rewrite Hpd; by destruct d).
  destruct (effect_direct (l1 ++ BTree (LCall i w) :: l2) i p isrec n e B1 ty L r x) as (Hleg&Hxd); try done.
  { rewrite <-app_assoc. exact H1. }
  { by eapply sound_before. }
  { by destruct (Prop_Linux.proper_upath p Hp0 Hp) as (_&?&_). }
  eapply (gone_offered l3 l4 fd ge l5 B1 B2 B d y x true); try done; [|by left].
  destruct (role_entry _ ty L r _ (render slash p) x Hkd Hx0) as (w0&Hw&He&Hd'); [by left|]. rewrite Hty, <-?Hpd in *. by exists w0.
Qed.
End after_watch.

(** ** Nothing is made up *)
Lemma sent_processed ls B : bruns binit ls B →
  (∀ e, e ∈ b_out B → ∃ u p st A ord j g evn v, ls = u ++ BKq (KProc p (TEvent st A ord j g evn)) :: v ∧ e ∈ evn) ∧
  (∀ e, BSend e ∈ ls → ∃ u p st A ord j g evn v, ls = u ++ BKq (KProc p (TEvent st A ord j g evn)) :: v ∧ e ∈ evn).
Proof.
  revert B. induction ls as [|l ls IH] using rev_ind; intros B H.
  { inversion H; subst. split; intros e He; by apply elem_of_nil in He. }
  apply bruns_app in H as (B0&H0&Hs%bruns_one). destruct (IH _ H0) as [I1 I2].
  assert (∀ e, (∃ u p st A ord j g evn v, ls = u ++ BKq (KProc p (TEvent st A ord j g evn)) :: v ∧ e ∈ evn) →
    ∃ u p st A ord j g evn v, ls ++ [l] = u ++ BKq (KProc p (TEvent st A ord j g evn)) :: v ∧ e ∈ evn) as K.
  { intros e (u&p&st&A&ord&j&g&evn&v&->&He). exists u, p, st, A, ord, j, g, evn, (v ++ [l]). by rewrite <-app_assoc. }
  split; intros e He.
  - destruct Hs; cbn [b_out] in *; try (by apply K, I1); try (by apply elem_of_nil in He).
    + by exists ls, p, st, A, ord, j, g, evn, [].
    + apply K, I1. by right.
  - apply elem_of_app in He as [He|He]; [by apply K, I2|]. apply elem_of_list_singleton in He. subst l.
    inversion Hs; subst. cbn [b_out] in *. apply K, I1. by left.
Qed.
Lemma reported_sent ls B ei : bruns binit ls B → LReport ei ∈ btrees ls → ∃ e, BSend e ∈ ls ∧ te_info e = ei.
Proof.
  intros H Hin. apply elem_of_list_omap in Hin as (z&Hz&Hx). destruct z as [l|l|e]; cbn in Hx; [|done|exists e; by injection Hx as <-].
  injection Hx as ->. exfalso. apply elem_of_list_split in Hz as (a&b'&->). apply bruns_app in H as (B0&_&H). inversion H as [|? ? B1 ? ? Hs _]; subst.
  inversion Hs; subst. done.
Qed.
(** What a channel is offered, the watcher has made of a note of the kernel: about the file
    or directory the note is for, something listed in it or known below it; each bit of the
    note happened to that file before, unless the descriptor was closed in between
    (C92_reused_refuted); and Watch calls of the channel for the path or the directory it is
    in, or a recursive one above, ask for what the event says. *)
Theorem C93_only ls B j n ei taken : bruns binit ls B → sound ls → BTree (LOffer j n ei taken) ∈ ls →
  (∃ u q st A ord fd g evn v e s0 w, ls = u ++ BKq (KProc (Some q) (TEvent st A ord (inl fd) g evn)) :: v ∧ e ∈ evn ∧ te_info e = ei ∧
     krun (bkqs u) s0 ∧ tw_at (k_t s0) q = Some w ∧ incl_ev (ei_event ei) (tw_e w) ∧ SpecTriggerFds.about (k_t s0) A w e ∧
     ∀ k, has g k → ∃ u1 ge q' u2, u = u1 ++ BKq (KNote fd ge q') :: u2 ∧ has ge k ∧ (q' = q ∨ ∃ l, BKq l ∈ u2 ∧ ¬ spares l q')) ∧
  ∀ d x, d ≠ [] → comps_ok slash d → [] ∉ d → comp_ok slash x → ei_path ei = render slash (d ++ [x]) →
  ∃ la lb q, btrees ls = la ++ lb ∧ LTake j ei ∈ la ∧
    (q = d ++ [x] ∨ q = d ∨ q `prefix_of` d ∧ ∃ e, standing la n q true e) ∧
    ∀ y, has (ei_event ei) y → ∃ isrec e, standing la n q isrec e ∧ has (e .| rec_bit kqueue isrec) y.
Proof.
  intros H Hso Hin. pose proof (bruns_nrun _ _ H Hso) as Hr. pose proof (bruns_krun _ _ H) as Hk.
  assert (LOffer j n ei taken ∈ btrees ls) as Ho by (apply elem_of_list_omap; by eexists).
  destruct (sent_some _ _ _ _ _ _ _ _ _ _ Hr Ho) as (la&lb&c0&E&Heq&Hr0&Ht&_).
  assert (LReport ei ∈ btrees ls) as Hrep.
  { assert (ei ∈ reports (btrees ls)) as Hx.
    { rewrite (run_takes _ _ _ _ _ _ Hr). apply elem_of_app. left. rewrite Heq, takes_app. apply elem_of_app. left.
      apply elem_of_list_omap. by exists (LTake j ei). }
    apply elem_of_list_omap in Hx as ([]&Hl&Hx); try done. by injection Hx as <-. }
  destruct (reported_sent _ _ _ H Hrep) as (e&Hsend&<-). split.
  - destruct (sent_processed _ _ H) as [_ K]. destruct (K _ Hsend) as (u&q&st&A&ord&jj&g&evn&v&->&Hev).
    rewrite bkqs_app, bkqs_kq in Hk. pose proof Hk as Hk'. apply krun_elem in Hk' as (s1&s2&Hk1&Hk2).
    assert (∃ fd, jj = inl fd) as [fd ->] by (inversion Hk2; subst; eauto).
    destruct (Prop_KqMon.C92_names _ _ _ _ _ _ _ _ _ _ _ Hk Hev) as (s0&w&H0&->&Hw&He&Ha).
    exists u, (tw_p w), st, A, ord, fd, g, evn, v, e, s0, w. split_and!; try done.
    intros k Hgk. destruct (Prop_KqMon.C92_own_partial _ _ _ _ _ _ _ _ _ _ k Hk Hgk) as (u1&ge&q'&u2&Hu&Hge&Hq).
    apply bkqs_split in Hu as (a&b'&->&_&<-). exists a, ge, q', b'. split_and!; [done|done|].
    destruct Hq as [->|(l&Hl&Hnl)]; [by left|right]. exists l. split; [by apply bkqs_elem|done].
  - intros d x Hd0 Hdc Hdn Hxc Hpx. destruct (Hso _ Hsend) as (Hz1&Hz2&_).
    destruct (C89_only kqueue kq_ok eq_refl slash _ _ _ _ _ _ d x Hr Ho) as (la'&lb'&q&G1&G2&_&G3&G4).
    + split_and!; try done. by apply (NonRecReg.gpath_upath kqueue kq_ok slash).
    + exists la', lb', q. by split_and!.
Qed.

(** ** An instance *)
(** Channel 1 watches the file /a/f for Write, and it is written; Stop is called for channel
    2, and waits for the lock and gets it while the note goes through the watcher. *)
Local Ltac noreaders := let H := fresh in intros ? ? ? ? H; simpl in H;
  repeat first [apply lookup_insert_Some in H as [[? ?]|[? H]]; [congruence|]|apply lookup_delete_Some in H as [? H]|by rewrite lookup_empty in H].
Definition pf : path := pth "a/f".
Definition qf : str := b "/a/f".
Definition F0 : gset path := {[ pth "a" ]}.
Lemma F0_ok : dirs_ok slash F0.
Proof. apply dirs_okb_ok. by vm_compute. Qed.
Definition G0 : env := mkenv kqueue F0 allok.
Lemma G0_env : nenv kqueue slash G0.
Proof. apply mkenv_nenv, F0_ok. Qed.
Definition w1 : nop := NWatch pf false 1 (Write kqueue).
Definition w2 : nop := NWatch pf false 2 NoteAttrib.
Definition t1 : st := (nstep slash G0 init_st w1).1.
Definition t2 : st := (nstep slash G0 t1 w2).1.
Definition t3 : st := (nstep slash G0 t1 (NStop 2)).1.
Definition ze : tevent := TE qf (Write kqueue) false.
Lemma w1_t1 : nstep slash G0 init_st w1 = (t1, ok).
Proof. assert ((nstep slash G0 init_st w1).2 = ok) as H by (by vm_compute). unfold t1. by rewrite <-(Prop_TreeConc.pair_snd _ _ H). Qed.
Lemma t1_t2 : nstep slash G0 t1 w2 = (t2, ok).
Proof. assert ((nstep slash G0 t1 w2).2 = ok) as H by (by vm_compute). unfold t2. by rewrite <-(Prop_TreeConc.pair_snd _ _ H). Qed.
Lemma t1_t3 : nstep slash G0 t1 (NStop 2) = (t3, ok).
Proof. assert ((nstep slash G0 t1 (NStop 2)).2 = ok) as H by (by vm_compute). unfold t3. by rewrite <-(Prop_TreeConc.pair_snd _ _ H). Qed.
Lemma t3_ze : nr_dispatch G0 (st_tree t3) (te_info ze) = ([KUser 1], false).
Proof. by vm_compute. Qed.
Lemma t_log : st_log t1 = [(WWatch qf (Write kqueue), true)] ∧ st_log t3 = [(WWatch qf (Write kqueue), true)] ∧
  st_log t2 = [(WWatch qf (Write kqueue), true); (WRewatch qf (Write kqueue) (Write kqueue .| NoteAttrib), true)] ∧
  st_panic t1 = false ∧ st_panic t2 = false ∧ st_panic t3 = false.
Proof. by vm_compute. Qed.
Definition cw : cmd := Prop_KqMon.cw qf.
Definition cr : cmd := XRewatch (Some false) Prop_KqMon.K Prop_KqMon.K qf (Write kqueue .| NoteAttrib).
Definition cx : cmd := XEvent (Some false) Prop_KqMon.K (inl 1%nat) NoteWrite.
Notation lab := Prop_KqMon.lab.
Notation after := Prop_KqMon.after.
Lemma lab_w : lab [] cw = TWatch (Some false) Prop_KqMon.K qf (Write kqueue) ROk.
Proof. by vm_compute. Qed.
Lemma lab_r : lab [cw] cr = TRewatch (Some false) Prop_KqMon.K Prop_KqMon.K qf (Write kqueue .| NoteAttrib) ROk.
Proof. by vm_compute. Qed.
Lemma lab_x : lab [cw] cx = TEvent (Some false) Prop_KqMon.K (keys_of (after [cw])) (inl 1%nat) NoteWrite [ze].
Proof.
  change (lab [cw] cx) with (TEvent (Some false) Prop_KqMon.K (keys_of (after [cw])) (inl 1%nat) NoteWrite (TriggerEx.sent (lab [cw] cx))).
  assert (TriggerEx.sent (lab [cw] cx) = [ze]) as -> by (by vm_compute). done.
Qed.
Lemma usual_w c out : c_st c = t1 → usual pf qf (BS c (KS (after [cw]) ∅ None) out [lab [] cw]).
Proof.
  intros Hc. exists (λ _, false). unfold usual. cbn [b_c b_k k_t]. rewrite Hc. destruct t_log as (-> & _).
  eexists _, _. split; [|split; [|split; [left; by vm_compute|done]]].
  - pose proof (Prop_KqMon.lab_step [] cw) as Hs. rewrite lab_w in Hs.
    refine (kd_watch kq (λ _, false) [] _ _ _ Prop_KqMon.K qf (Write kqueue) [] ROk _ (kd_init _ _) (kind_willing _) _ _ _ _ _ Hs).
    + done.
    + by vm_compute.
    + exists pf. split; [|by vm_compute]. apply (bool_decide_unpack _); by vm_compute.
    + done.
    + constructor.
  - by vm_compute.
Qed.
Lemma bruns_snoc B a B' l B'' : bruns B a B' → bstep B' l B'' → bruns B (a ++ [l]) B''.
Proof. intros H1 H2. eapply bruns_join; [exact H1|]. econstructor; [exact H2|constructor]. Qed.
Definition ex_l2 : list blab := [BTree LTau; BTree LTau; BKq (KCall (lab [] cw))].
Definition ex_l5 : list blab := [BTree (LCall 1 (NStop 2)); BKq (KTake 1 NoteWrite); BTree LTau; BKq (KProc (Some qf) (lab [cw] cx)); BTree LTau;
  BSend ze; BTree (LCrit 1 (NStop 2) ok); BTree (LTake 2 (te_info ze)); BTree LTau; BTree LTau;
  BTree (LOffer 2 1 (te_info ze) true); BTree (LRet 1 (NStop 2) ok); BTree LTau].
Definition ex_after : list blab := [BTree LTau] ++ BTree (LRet 0 w1 ok) :: [] ++ BKq (KNote 1 NoteWrite qf) :: ex_l5.
Opaque t1 t2 t3.
Local Ltac tr tac := idtac; match goal with Hr : bruns _ _ _ |- _ => eapply bruns_snoc in Hr; [|eapply b_tree; [tac|done]] end.
Lemma nd_empty l s s' : notes_after l s s' ∅ ∅.
Proof. apply Prop_KqMon.notes_none. intros fd. apply lookup_empty. Qed.
Local Ltac start Hr :=
  let L1 := fresh "L1" in let P1 := fresh "P1" in destruct t_log as (L1&_&_&P1&_); pose proof (bruns_nil binit) as Hr; unfold binit at 2 in Hr;
  tr ltac:(eapply (s_call _ _ _ _ _ w1); split; [done|]; apply nop_okb_ok; by vm_compute);
  tr ltac:(eapply (s_want _ _ _ _ _ 0%nat); reflexivity);
  tr ltac:(eapply (s_lock _ _ _ _ _ 0%nat); [reflexivity|noreaders]);
  (eapply bruns_snoc in Hr; [|eapply (b_call _ _ _ _ (lab [] cw) (KS (after [cw]) ∅ None));
    [apply (k_call (after []) ∅ None (lab [] cw)); [done|exact next_fd_fresh|apply (Prop_KqMon.lab_step [] cw)|apply nd_empty]|left; exists 0%nat, w1; reflexivity]]);
  (eapply bruns_snoc in Hr; [|eapply (b_crit _ _ _ _ 0%nat w1 G0 t1 ok); [reflexivity|exact G0_env|done|exact w1_t1|exact P1|rewrite L1, lab_w; repeat constructor]]).
Local Ltac note :=
  tr ltac:(eapply (s_unlock _ _ _ _ _ 0%nat); reflexivity);
  tr ltac:(eapply (s_ret _ _ _ _ _ 0%nat); reflexivity);
  match goal with Hr : bruns _ _ _ |- _ =>
    eapply bruns_snoc in Hr; [|eapply b_note; apply (k_note (after [cw]) ∅ None 1 NoteWrite qf NoteWrite); [by vm_compute|by vm_compute|done|by intros j Hj]] end.
Lemma ex_run : ∃ B1 B, bruns binit (watched [] 0 pf false 1 (Write kqueue) ex_l2) B1 ∧ usual pf qf B1 ∧ bruns B1 ex_after B ∧ at_rest B.
Proof.
  destruct t_log as (_&L3&_&_&_&P3). start Hr.
  match type of Hr with bruns _ _ ?B => exists B end. eexists. split; [exact Hr|]. split; [by apply usual_w|]. clear Hr.
  match goal with |- bruns ?B _ _ ∧ _ => pose proof (bruns_nil B) as Hr end. note.
  tr ltac:(eapply (s_call _ _ _ _ _ (NStop 2)); exact (stop_ok 2)).
  eapply bruns_snoc in Hr; [|eapply b_take; apply k_take; by rewrite lookup_insert].
  tr ltac:(eapply (s_want _ _ _ _ _ 1%nat); reflexivity).
  eapply bruns_snoc in Hr; [|pose proof (Prop_KqMon.lab_step [cw] cx) as Hs; rewrite lab_x in Hs; eapply b_proc;
    apply (k_proc (after [cw]) _ 1 NoteWrite (Some false) Prop_KqMon.K (keys_of (after [cw])) [ze] (after [cw; cx]) ∅); [exact next_fd_fresh|exact Hs|]].
  2: { intros fd. assert ((delete 1%nat (<[1%nat := default 0 ((∅ : gmap nat N) !! 1%nat) .| NoteWrite]> (∅ : gmap nat N))) = ∅) as -> by (apply (delete_insert (∅ : gmap nat N) 1%nat); apply lookup_empty). apply nd_empty. }
  tr ltac:(eapply (s_lock _ _ _ _ _ 1%nat); [reflexivity|noreaders]).
  eapply bruns_snoc in Hr; [|eapply (b_send _ _ ze); eapply s_report; [done|simpl; unfold buffer; lia]].
  eapply bruns_snoc in Hr; [|eapply (b_crit _ _ _ _ 1%nat (NStop 2) G0 t3 ok); [reflexivity|exact G0_env|exact (reliable_allok kqueue F0)|exact t1_t3|exact P3|rewrite L3, lab_w; repeat constructor]].
  tr ltac:(eapply s_take; reflexivity).
  tr ltac:(eapply (s_unlock _ _ _ _ _ 1%nat); reflexivity).
  tr ltac:(eapply (s_rlock _ _ _ _ _ 2%nat (te_info ze) G0); [reflexivity|done|exact G0_env|exact t3_ze]).
  tr ltac:(eapply (s_offer _ _ _ _ _ 2%nat _ 1%positive _ _ true); reflexivity).
  tr ltac:(eapply (s_ret _ _ _ _ _ 1%nat); reflexivity).
  tr ltac:(eapply (s_runlock _ _ _ _ _ 2%nat); reflexivity).
  split.
  - unfold ex_after, ex_l5. rewrite lab_x. assert (owner (after [cw]) 1 = Some qf) as E by (by vm_compute). rewrite E in Hr. exact Hr.
  - refine (conj (conj _ (conj _ (conj _ _))) (conj _ (conj _ _))); [apply map_to_list_empty_iff|..].
    1: vm_compute; reflexivity.
    all: reflexivity.
Qed.
Local Instance proper_dec x : Decision (proper x).
Proof. unfold proper. apply _. Defined.
Lemma render_pf : render slash pf = qf.
Proof. by vm_compute. Qed.
Example C93_ex : ∃ B1 B, bruns binit (watched [] 0 pf false 1 (Write kqueue) ex_l2) B1 ∧ usual pf qf B1 ∧ bruns B1 ex_after B ∧ at_rest B ∧
  stays [] 0 pf false 1 (Write kqueue) ex_l2 qf ex_after ∧ sound (watched [] 0 pf false 1 (Write kqueue) ex_l2 ++ ex_after) ∧
  (∀ ev isd, BSend (TE qf ev isd) ∈ ex_after → incl_ev ev (Write kqueue)) ∧
  pf = pth "a" ++ [b "f"] ∧ qf = render slash (pth "a" ++ [b "f"]) ∧ Forall proper (pth "a") ∧ proper (b "f") ∧
  SpecTrigger.reported kq NoteWrite (Write kqueue) ∧ disj_ev (Write kqueue) (internal kqueue).
Proof.
  destruct ex_run as (B1&B&H1&H2&H3&H4). exists B1, B. refine (conj H1 (conj H2 (conj H3 (conj H4 _)))). clear.
  refine (conj (conj _ (conj _ _)) (conj _ (conj _ (conj _ (conj _ (conj _ (conj _ (conj _ _)))))))).
  - intros k Hk. exfalso. unfold watched, ex_l2, ex_after, ex_l5 in Hk. rewrite lab_w, lab_x in Hk. cbn in Hk.
    repeat (apply elem_of_cons in Hk as [Hk|Hk]; [discriminate Hk|]). by apply elem_of_nil in Hk.
  - intros ei q Hk. exfalso. unfold watched, ex_l2, ex_after, ex_l5 in Hk. rewrite lab_w, lab_x in Hk. cbn in Hk.
    repeat (apply elem_of_cons in Hk as [Hk|Hk]; [discriminate Hk|]). by apply elem_of_nil in Hk.
  - intros x Hx. unfold ex_after, ex_l5 in Hx. rewrite lab_x in Hx. cbn [app] in Hx.
    repeat (apply elem_of_cons in Hx as [Hx|Hx]; [first [discriminate Hx|injection Hx as ->]|]); [exact I|exact I| |by apply elem_of_nil in Hx].
    split; [intros _; split; [by vm_compute|by right]|]. intros Hz. by vm_compute in Hz.
  - intros e He. unfold watched, ex_l2, ex_after, ex_l5 in He. rewrite lab_w, lab_x in He. cbn [app] in He.
    repeat (apply elem_of_cons in He as [He|He]; [first [discriminate He|injection He as ->]|]); [|by apply elem_of_nil in He].
    split_and!; [done|by apply land_zero_disj|]. exists pf. split; [|by vm_compute]. apply Prop_Linux.proper_upath; [done|]. apply (bool_decide_unpack _); by vm_compute.
  - intros ev isd He. unfold ex_after, ex_l5 in He. rewrite lab_x in He. cbn [app] in He.
    repeat (apply elem_of_cons in He as [He|He]; [first [discriminate He|injection He as -> _]|]); [by intros j Hj|by apply elem_of_nil in He].
  - by vm_compute.
  - by vm_compute.
  - apply (bool_decide_unpack _); by vm_compute.
  - apply (bool_decide_unpack _); by vm_compute.
  - right. exists NoteWrite. split; [left|by vm_compute].
  - by apply land_zero_disj.
Qed.

(** ** An instance below a recursive watch *)
(** Channel 1 watches /a recursively for Write; in it is the directory /a/b, in that the file
    f, which is written. *)
Definition Fb : gset path := {[ pth "a"; pth "a/b" ]}.
Lemma Fb_ok : dirs_ok slash Fb.
Proof. apply dirs_okb_ok. by vm_compute. Qed.
Definition Gb : env := mkenv kqueue Fb allok.
Definition wb : nop := NWatch (pth "a") true 1 (Write kqueue).
Definition tb : st := (nstep slash Gb init_st wb).1.
Definition qa : str := b "/a". Definition qab : str := b "/a/b". Definition qabf : str := b "/a/b/f".
Definition eb : N := Write kqueue .| Create kqueue.
Definition zb : tevent := TE qabf (Write kqueue) false.
Definition in_a : list finfo := [FI (b "b") true]. Definition in_ab : list finfo := [FI (b "f") false].
Definition Ab : answers := kind (λ q, if decide (q = qa) then Some in_a else if decide (q = qab) then Some in_ab else None).
Definition tyb (q : str) : bool := bool_decide (q = qa) || bool_decide (q = qab).
Definition ca : cmd := XWatch (Some true) Ab qa eb.
Definition cab : cmd := XWatch (Some true) Ab qab eb.
Definition cn : cmd := XEvent (Some false) Ab (inl 3%nat) NoteWrite.
Lemma wb_tb : nstep slash Gb init_st wb = (tb, ok).
Proof. assert ((nstep slash Gb init_st wb).2 = ok) as H by (by vm_compute). unfold tb. by rewrite <-(Prop_TreeConc.pair_snd _ _ H). Qed.
Lemma tb_log : st_log tb = [(WWatch qa eb, true); (WWatch qab eb, true)] ∧ st_panic tb = false.
Proof. by vm_compute. Qed.
Lemma tb_zb : nr_dispatch Gb (st_tree tb) (te_info zb) = ([KUser 1], false).
Proof. by vm_compute. Qed.
Lemma lab_a : lab [] ca = TWatch (Some true) Ab qa eb ROk.
Proof. by vm_compute. Qed.
Lemma lab_ab : lab [ca] cab = TWatch (Some true) Ab qab eb ROk.
Proof. by vm_compute. Qed.
Lemma lab_n : lab [ca; cab] cn = TEvent (Some false) Ab (keys_of (after [ca; cab])) (inl 3%nat) NoteWrite [zb].
Proof.
  change (lab [ca; cab] cn) with (TEvent (Some false) Ab (keys_of (after [ca; cab])) (inl 3%nat) NoteWrite (TriggerEx.sent (lab [ca; cab] cn))).
  assert (TriggerEx.sent (lab [ca; cab] cn) = [zb]) as -> by (by vm_compute). done.
Qed.
Lemma owner_f : owner (after [ca; cab]) 3 = Some qabf.
Proof. by vm_compute. Qed.
Lemma usual_below c out cs : c_st c = tb → usual (pth "a/b") qabf (BS c (KS (after [ca; cab]) ∅ None) out cs).
Proof.
  intros Hc. exists tyb. unfold usual. cbn [b_c b_k k_t]. rewrite Hc. destruct tb_log as (-> & _).
  eexists _, _. split; [|split; [|split]].
  - pose proof (Prop_KqMon.lab_step [] ca) as Hs. rewrite lab_a in Hs.
    assert (kdrives kq tyb [(WWatch qa eb, true)] (relisted (λ _, False) qa in_a) (role_watch no_roles qa in_a eb) (after [ca])) as K.
    { refine (kd_watch kq tyb [] _ _ _ Ab qa eb in_a ROk _ (kd_init _ _) (kind_willing _) _ _ _ _ _ Hs); clear.
      + done.
      + by vm_compute.
      + exists (pth "a"). split; [|by vm_compute]. apply (bool_decide_unpack _); by vm_compute.
      + split; [by vm_compute|apply Forall_singleton; by vm_compute].
      + apply Forall_singleton. apply (bool_decide_unpack _); by vm_compute. }
    pose proof (Prop_KqMon.lab_step [ca] cab) as Hs2. rewrite lab_ab in Hs2.
    refine (kd_watch kq tyb [_] _ _ _ Ab qab eb in_ab ROk _ K (kind_willing _) _ _ _ _ _ Hs2); clear.
    + done.
    + by vm_compute.
    + exists (pth "a/b"). split; [|by vm_compute]. apply (bool_decide_unpack _); by vm_compute.
    + split; [by vm_compute|apply Forall_singleton; by vm_compute].
    + apply Forall_singleton. apply (bool_decide_unpack _); by vm_compute.
  - by vm_compute.
  - right. left. apply (bool_decide_unpack _). by vm_compute.
  - by vm_compute.
Qed.
Definition below_l2 : list blab := [BTree LTau; BTree LTau; BKq (KCall (lab [] ca)); BKq (KCall (lab [ca] cab))].
Definition below_l5 : list blab := [BKq (KTake 3 NoteWrite); BKq (KProc (Some qabf) (lab [ca; cab] cn)); BSend zb; BTree (LTake 1 (te_info zb)); BTree LTau;
  BTree (LOffer 1 1 (te_info zb) true); BTree LTau].
Definition below_after : list blab := [BTree LTau] ++ BTree (LRet 0 wb ok) :: [] ++ BKq (KNote 3 NoteWrite qabf) :: below_l5.
Opaque tb.
Lemma wb_good : os_good Gb wb.
Proof. split; [done|]. split; [|exact (reliable_allok kqueue Fb)]. apply (bool_decide_unpack _). by vm_compute. Qed.
Lemma below_run : ∃ B1 B, bfrun (watched [] 0 (pth "a") true 1 (Write kqueue) below_l2) [(wb, ok)] Fb B1 ∧ usual (pth "a/b") qabf B1 ∧ bruns B1 below_after B ∧ at_rest B.
Proof.
  destruct tb_log as (L&Pn). pose proof (bf_init Fb Fb_ok) as Hf. unfold binit in Hf.
  eapply bf_other in Hf; [|eapply b_tree; [eapply (s_call _ _ _ _ _ wb); split; [done|]; apply nop_okb_ok; by vm_compute|done]|done|done|done].
  eapply bf_other in Hf; [|eapply b_tree; [eapply (s_want _ _ _ _ _ 0%nat); reflexivity|done]|done|done|done].
  eapply bf_other in Hf; [|eapply b_tree; [eapply (s_lock _ _ _ _ _ 0%nat); [reflexivity|noreaders]|done]|done|done|done].
  eapply bf_other in Hf; [|eapply (b_call _ _ _ _ (lab [] ca) (KS (after [ca]) ∅ None));
    [apply (k_call (after []) ∅ None (lab [] ca)); [done|exact next_fd_fresh|apply (Prop_KqMon.lab_step [] ca)|apply nd_empty]|left; exists 0%nat, wb; reflexivity]|done|done|done].
  eapply bf_other in Hf; [|eapply (b_call _ _ _ _ (lab [ca] cab) (KS (after [ca; cab]) ∅ None));
    [apply (k_call (after [ca]) ∅ None (lab [ca] cab)); [done|exact next_fd_fresh|apply (Prop_KqMon.lab_step [ca] cab)|apply nd_empty]|left; exists 0%nat, wb; reflexivity]|done|done|done].
  eapply bf_call in Hf; [|eapply (b_crit _ _ _ _ 0%nat wb Gb tb ok); [reflexivity|apply mkenv_nenv, Fb_ok|exact wb_good|exact wb_tb|exact Pn|rewrite L, lab_a, lab_ab; repeat constructor]
    |apply mkenv_nenv, Fb_ok|exact wb_good|apply mkenv_fs, Fb_ok|exact wb_tb].
  match type of Hf with bfrun _ _ _ ?B => exists B end. eexists. split; [exact Hf|]. split; [by apply usual_below|]. clear Hf.
  match goal with |- bruns ?B _ _ ∧ _ => pose proof (bruns_nil B) as Hr end.
  tr ltac:(eapply (s_unlock _ _ _ _ _ 0%nat); reflexivity).
  tr ltac:(eapply (s_ret _ _ _ _ _ 0%nat); reflexivity).
  eapply bruns_snoc in Hr; [|eapply b_note; apply (k_note (after [ca; cab]) ∅ None 3 NoteWrite qabf NoteWrite); [exact owner_f|by vm_compute|done|by intros j Hj]].
  eapply bruns_snoc in Hr; [|eapply b_take; apply k_take; by rewrite lookup_insert].
  eapply bruns_snoc in Hr; [|pose proof (Prop_KqMon.lab_step [ca; cab] cn) as Hs; rewrite lab_n in Hs; eapply b_proc;
    apply (k_proc (after [ca; cab]) _ 3 NoteWrite (Some false) Ab (keys_of (after [ca; cab])) [zb] (after [ca; cab; cn]) ∅); [exact next_fd_fresh|exact Hs|]].
  2: { intros fd. assert ((delete 3%nat (<[3%nat := default 0 ((∅ : gmap nat N) !! 3%nat) .| NoteWrite]> (∅ : gmap nat N))) = ∅) as -> by (apply (delete_insert (∅ : gmap nat N) 3%nat); apply lookup_empty). apply nd_empty. }
  eapply bruns_snoc in Hr; [|eapply (b_send _ _ zb); eapply s_report; [done|simpl; unfold buffer; lia]].
  tr ltac:(eapply s_take; reflexivity).
  tr ltac:(eapply (s_rlock _ _ _ _ _ 1%nat (te_info zb) Gb); [reflexivity|done|apply mkenv_nenv, Fb_ok|exact tb_zb]).
  tr ltac:(eapply (s_offer _ _ _ _ _ 1%nat _ 1%positive _ _ true); reflexivity).
  tr ltac:(eapply (s_runlock _ _ _ _ _ 1%nat); reflexivity).
  split.
  - unfold below_after, below_l5. rewrite lab_n. rewrite owner_f in Hr. exact Hr.
  - refine (conj (conj _ (conj _ (conj _ _))) (conj _ (conj _ _))); [apply map_to_list_empty_iff|..].
    1: vm_compute; reflexivity.
    all: reflexivity.
Qed.
Example C93_below_ex : ∃ B1 B, bfrun (watched [] 0 (pth "a") true 1 (Write kqueue) below_l2) [(wb, ok)] Fb B1 ∧ usual (pth "a/b") qabf B1 ∧ bruns B1 below_after B ∧ at_rest B ∧
  stays [] 0 (pth "a") true 1 (Write kqueue) below_l2 qabf below_after ∧ sound (watched [] 0 (pth "a") true 1 (Write kqueue) below_l2 ++ below_after) ∧
  (∀ ev isd, BSend (TE qabf ev isd) ∈ below_after → incl_ev ev (Write kqueue)) ∧
  pth "a/b" ∈ Fb ∧ pth "a" `prefix_of` pth "a/b" ∧ qabf = render slash (pth "a/b" ++ [b "f"]) ∧ Forall proper (pth "a/b") ∧ proper (b "f") ∧
  SpecTrigger.reported kq NoteWrite (Write kqueue).
Proof.
  destruct below_run as (B1&B&H1&H2&H3&H4). exists B1, B. refine (conj H1 (conj H2 (conj H3 (conj H4 _)))). clear.
  refine (conj (conj _ (conj _ _)) (conj _ (conj _ (conj _ (conj _ (conj _ (conj _ (conj _ _)))))))).
  - intros k Hk. exfalso. unfold watched, below_l2, below_after, below_l5 in Hk. rewrite lab_a, lab_ab, lab_n in Hk. cbn in Hk.
    repeat (apply elem_of_cons in Hk as [Hk|Hk]; [discriminate Hk|]). by apply elem_of_nil in Hk.
  - intros ei q Hk. exfalso. unfold watched, below_l2, below_after, below_l5 in Hk. rewrite lab_a, lab_ab, lab_n in Hk. cbn in Hk.
    repeat (apply elem_of_cons in Hk as [Hk|Hk]; [discriminate Hk|]). by apply elem_of_nil in Hk.
  - intros x Hx. unfold below_after, below_l5 in Hx. rewrite lab_n in Hx. cbn [app] in Hx.
    repeat (apply elem_of_cons in Hx as [Hx|Hx]; [first [discriminate Hx|injection Hx as ->]|]); [exact I|exact I| |by apply elem_of_nil in Hx].
    split; [intros _; split; [by vm_compute|by right]|]. intros Hz. by vm_compute in Hz.
  - intros e He. unfold watched, below_l2, below_after, below_l5 in He. rewrite lab_a, lab_ab, lab_n in He. cbn [app] in He.
    repeat (apply elem_of_cons in He as [He|He]; [first [discriminate He|injection He as ->]|]); [|by apply elem_of_nil in He].
    split_and!; [done|by apply land_zero_disj|]. exists (pth "a/b/f"). split; [|by vm_compute]. apply Prop_Linux.proper_upath; [done|]. apply (bool_decide_unpack _); by vm_compute.
  - intros ev isd He. unfold below_after, below_l5 in He. rewrite lab_n in He. cbn [app] in He.
    repeat (apply elem_of_cons in He as [He|He]; [first [discriminate He|injection He as -> _]|]); [by intros j Hj|by apply elem_of_nil in He].
  - apply (bool_decide_unpack _); by vm_compute.
  - exists [b "b"]. by vm_compute.
  - by vm_compute.
  - apply (bool_decide_unpack _); by vm_compute.
  - apply (bool_decide_unpack _); by vm_compute.
  - right. exists NoteWrite. split; [left|by vm_compute].
Qed.

(** ** What fails *)
(** Channel 1 watches /a/f for Write, and /a/f is written; before the monitor has asked for
    the note, channel 2's Watch for the same file widens what the watcher asks for, which
    closes the descriptor and opens the file again.  Both calls return nil, no Stop is ever
    called, nothing is left to do, and channel 1 has not been told of the write. *)
Definition rf_l5 : list blab := [BTree (LCall 1 w2); BTree LTau; BTree LTau; BKq (KCall (lab [cw] cr)); BTree (LCrit 1 w2 ok); BTree LTau; BTree (LRet 1 w2 ok)].
Theorem C93_rewatch_refuted : ∃ B1 l5 B, let after := [BTree LTau] ++ BTree (LRet 0 w1 ok) :: [] ++ BKq (KNote 1 NoteWrite qf) :: l5 in
  w1 = NWatch pf false 1 (Write kqueue) ∧ qf = render slash pf ∧ bruns binit (watched [] 0 pf false 1 (Write kqueue) ex_l2) B1 ∧ usual pf qf B1 ∧ bruns B1 after B ∧ at_rest B ∧
  SpecTrigger.reported kq NoteWrite (Write kqueue) ∧
  (∃ k m e, BTree (LRet k (NWatch pf false m e) ok) ∈ l5) ∧ (∀ k m, BTree (LCall k (NStop m)) ∉ after) ∧ (∀ ei, BTree (LInt ei) ∉ after) ∧
  (∀ e, BSend e ∉ after) ∧ ∀ j m ei taken, BTree (LOffer j m ei taken) ∉ after.
Proof.
  destruct t_log as (_&_&L2&_&P2&_). start Hr.
  match type of Hr with bruns _ _ ?B => exists B end. exists rf_l5. eexists. cbv zeta. split; [done|]. split; [done|]. split; [exact Hr|]. split; [by apply usual_w|]. clear Hr.
  match goal with |- bruns ?B _ _ ∧ _ => pose proof (bruns_nil B) as Hr end. note.
  tr ltac:(eapply (s_call _ _ _ _ _ w2); split; [done|]; apply nop_okb_ok; by vm_compute).
  tr ltac:(eapply (s_want _ _ _ _ _ 1%nat); reflexivity).
  tr ltac:(eapply (s_lock _ _ _ _ _ 1%nat); [reflexivity|noreaders]).
  eapply bruns_snoc in Hr; [|eapply (b_call _ _ _ _ (lab [cw] cr) (KS (after [cw; cr]) ∅ None));
    [apply (k_call (after [cw]) _ None (lab [cw] cr)); [done|split; exact next_fd_fresh|apply (Prop_KqMon.lab_step [cw] cr)|]|left; exists 1%nat, w2; reflexivity]].
  2: { intros fd. rewrite lookup_empty. split_and!; [by right|done|]. intros q Ho Hsp. destruct (decide (fd = 1%nat)) as [->|Hne].
    - assert (owner (after [cw]) 1 = Some qf) as E by (by vm_compute). rewrite E in Ho. injection Ho as <-. rewrite lab_r in Hsp. exact (False_ind _ (proj1 Hsp eq_refl)).
    - by rewrite lookup_insert_ne, lookup_empty by done. }
  eapply bruns_snoc in Hr; [|eapply (b_crit _ _ _ _ 1%nat w2 G0 t2 ok); [reflexivity|exact G0_env|done|exact t1_t2|exact P2|]].
  2: { rewrite L2, lab_w, lab_r. repeat constructor. }
  tr ltac:(eapply (s_unlock _ _ _ _ _ 1%nat); reflexivity).
  tr ltac:(eapply (s_ret _ _ _ _ _ 1%nat); reflexivity).
  split; [exact Hr|]. split; [|split; [|split; [|split; [|split; [|split]]]]].
  - refine (conj (conj _ (conj _ (conj _ _))) (conj _ (conj _ _))); [apply map_to_list_empty_iff|..].
    1: vm_compute; reflexivity.
    all: reflexivity.
  - right. exists NoteWrite. split; [left|by vm_compute].
  - exists 1%nat, 2%positive, NoteAttrib. unfold rf_l5. do 6 (apply elem_of_list_further). apply elem_of_list_singleton. reflexivity.
  - intros k m Hk. unfold rf_l5 in Hk. cbn [app] in Hk. repeat (apply elem_of_cons in Hk as [Hk|Hk]; [discriminate Hk|]). by apply elem_of_nil in Hk.
  - intros ei Hk. unfold rf_l5 in Hk. cbn [app] in Hk. repeat (apply elem_of_cons in Hk as [Hk|Hk]; [discriminate Hk|]). by apply elem_of_nil in Hk.
  - intros e Hk. unfold rf_l5 in Hk. cbn [app] in Hk. repeat (apply elem_of_cons in Hk as [Hk|Hk]; [discriminate Hk|]). by apply elem_of_nil in Hk.
  - intros j m ei tk Hk. unfold rf_l5 in Hk. cbn [app] in Hk. repeat (apply elem_of_cons in Hk as [Hk|Hk]; [discriminate Hk|]). by apply elem_of_nil in Hk.
Qed.
(** Channel 1 watches the directory /a for Create.  The file /a/f is created; before the
    monitor has processed the note for /a, channel 2 calls Watch for /a/f, which enters the
    file into the watcher's table: it is no longer new when /a is listed, and nobody is told
    of the creation.  Both calls return nil, no Stop is ever called, and the descriptor of
    /a stays open. *)
Definition wc1 : nop := NWatch (pth "a") false 1 (Create kqueue).
Definition wc2 : nop := NWatch pf false 2 (Write kqueue).
Definition tc1 : st := (nstep slash G0 init_st wc1).1.
Definition tc2 : st := (nstep slash G0 tc1 wc2).1.
Lemma wc1_tc1 : nstep slash G0 init_st wc1 = (tc1, ok).
Proof. assert ((nstep slash G0 init_st wc1).2 = ok) as H by (by vm_compute). unfold tc1. by rewrite <-(Prop_TreeConc.pair_snd _ _ H). Qed.
Lemma wc2_tc2 : nstep slash G0 tc1 wc2 = (tc2, ok).
Proof. assert ((nstep slash G0 tc1 wc2).2 = ok) as H by (by vm_compute). unfold tc2. by rewrite <-(Prop_TreeConc.pair_snd _ _ H). Qed.
Lemma tc_log : st_log tc1 = [(WWatch qa (Create kqueue), true)] ∧ st_log tc2 = [(WWatch qa (Create kqueue), true); (WWatch qf (Write kqueue), true)] ∧
  st_panic tc1 = false ∧ st_panic tc2 = false.
Proof. by vm_compute. Qed.
Definition Aempty : answers := kind (λ q, if decide (q = qa) then Some [] else None).
Definition Afile : answers := kind (λ q, if decide (q = qa) then Some [FI (b "f") false] else None).
Definition cd : cmd := XWatch (Some true) Aempty qa (Create kqueue).
Definition cf : cmd := XWatch (Some false) Afile qf (Write kqueue).
Definition cz : cmd := XEvent (Some true) Afile (inl 1%nat) NoteWrite.
Lemma lab_d : lab [] cd = TWatch (Some true) Aempty qa (Create kqueue) ROk.
Proof. by vm_compute. Qed.
Lemma lab_f : lab [cd] cf = TWatch (Some false) Afile qf (Write kqueue) ROk.
Proof. by vm_compute. Qed.
Lemma lab_z : lab [cd; cf] cz = TEvent (Some true) Afile (keys_of (after [cd; cf])) (inl 1%nat) NoteWrite [].
Proof.
  change (lab [cd; cf] cz) with (TEvent (Some true) Afile (keys_of (after [cd; cf])) (inl 1%nat) NoteWrite (TriggerEx.sent (lab [cd; cf] cz))).
  assert (TriggerEx.sent (lab [cd; cf] cz) = []) as -> by (by vm_compute). done.
Qed.
(** Without the second Watch there would have been an event. *)
Lemma lab_z_alone : TriggerEx.sent (lab [cd] cz) = [TE qf (Create kqueue) false].
Proof. by vm_compute. Qed.
Lemma owner_a : owner (after [cd]) 1 = Some qa ∧ owner (after [cd; cf]) 1 = Some qa.
Proof. by vm_compute. Qed.
Definition cr_l2 : list blab := [BTree LTau; BTree LTau; BKq (KCall (lab [] cd))].
Definition cr_after : list blab := [BTree LTau] ++ BTree (LRet 0 wc1 ok) :: [] ++ BKq (KNote 1 NoteWrite qa) ::
  [BTree (LCall 1 wc2); BTree LTau; BTree LTau; BKq (KCall (lab [cd] cf)); BTree (LCrit 1 wc2 ok); BTree LTau; BTree (LRet 1 wc2 ok);
   BKq (KTake 1 NoteWrite); BKq (KProc (Some qa) (lab [cd; cf] cz))].
Opaque tc1 tc2.
Theorem C93_created_refuted : ∃ B1 B, let w := watched [] 0 (pth "a") false 1 (Create kqueue) cr_l2 in
  qa = render slash (pth "a") ∧ qf = render slash (pth "a" ++ [b "f"]) ∧ bruns binit w B1 ∧ bruns B1 cr_after B ∧ at_rest B ∧ tw_at (k_t (b_k B1)) qf = None ∧
  (∃ u v, cr_after = u ++ BTree (LRet 0 (NWatch (pth "a") false 1 (Create kqueue)) ok) :: BKq (KNote 1 NoteWrite qa) :: v) ∧
  (∃ k m e, BTree (LRet k (NWatch pf false m e) ok) ∈ cr_after) ∧
  (∃ st A ord j g ls, BKq (KProc (Some qa) (TEvent st A ord j g [])) ∈ cr_after ∧ g .& t_write kq ≠ 0 ∧ a_ls A qa = Some ls ∧ qf ∈ entries qa ls) ∧
  (∀ x, BKq x ∈ cr_after → spares x qa) ∧ (∀ k m, BTree (LCall k (NStop m)) ∉ cr_after) ∧ (∀ ei, BTree (LInt ei) ∉ cr_after) ∧
  (∀ e, BSend e ∉ cr_after) ∧ ∀ j m ei taken, BTree (LOffer j m ei taken) ∉ cr_after.
Proof.
  destruct tc_log as (L1&L2&P1&P2). destruct owner_a as [O1 O2]. pose proof (bruns_nil binit) as Hr. unfold binit at 2 in Hr.
  tr ltac:(eapply (s_call _ _ _ _ _ wc1); split; [done|]; apply nop_okb_ok; by vm_compute).
  tr ltac:(eapply (s_want _ _ _ _ _ 0%nat); reflexivity).
  tr ltac:(eapply (s_lock _ _ _ _ _ 0%nat); [reflexivity|noreaders]).
  eapply bruns_snoc in Hr; [|eapply (b_call _ _ _ _ (lab [] cd) (KS (after [cd]) ∅ None));
    [apply (k_call (after []) ∅ None (lab [] cd)); [done|exact next_fd_fresh|apply (Prop_KqMon.lab_step [] cd)|apply nd_empty]|left; exists 0%nat, wc1; reflexivity]].
  eapply bruns_snoc in Hr; [|eapply (b_crit _ _ _ _ 0%nat wc1 G0 tc1 ok); [reflexivity|exact G0_env|done|exact wc1_tc1|exact P1|rewrite L1, lab_d; repeat constructor]].
  match type of Hr with bruns _ _ ?B => exists B end. eexists. cbv zeta. split; [by vm_compute|]. split; [by vm_compute|]. split; [exact Hr|]. clear Hr.
  match goal with |- bruns ?B _ _ ∧ _ => pose proof (bruns_nil B) as Hr end.
  tr ltac:(eapply (s_unlock _ _ _ _ _ 0%nat); reflexivity).
  tr ltac:(eapply (s_ret _ _ _ _ _ 0%nat); reflexivity).
  eapply bruns_snoc in Hr; [|eapply b_note; apply (k_note (after [cd]) ∅ None 1 NoteWrite qa NoteWrite); [exact O1|by vm_compute|done|by intros j Hj]].
  tr ltac:(eapply (s_call _ _ _ _ _ wc2); split; [done|]; apply nop_okb_ok; by vm_compute).
  tr ltac:(eapply (s_want _ _ _ _ _ 1%nat); reflexivity).
  tr ltac:(eapply (s_lock _ _ _ _ _ 1%nat); [reflexivity|noreaders]).
  eapply bruns_snoc in Hr; [|eapply (b_call _ _ _ _ (lab [cd] cf) (KS (after [cd; cf]) (<[1%nat := default 0 ((∅ : gmap nat N) !! 1%nat) .| NoteWrite]> (∅ : gmap nat N)) None));
    [apply (k_call (after [cd]) _ None (lab [cd] cf)); [done|exact next_fd_fresh|apply (Prop_KqMon.lab_step [cd] cf)|]|left; exists 1%nat, wc2; reflexivity]].
  2: { intros fd. split_and!; [by left| |done]. intros Hne. destruct (decide (fd = 1%nat)) as [->|?]; [exfalso; apply Hne; by vm_compute|].
       rewrite lookup_insert_ne by done. apply lookup_empty. }
  eapply bruns_snoc in Hr; [|eapply (b_crit _ _ _ _ 1%nat wc2 G0 tc2 ok); [reflexivity|exact G0_env|done|exact wc2_tc2|exact P2|rewrite L2, lab_d, lab_f; repeat constructor]].
  tr ltac:(eapply (s_unlock _ _ _ _ _ 1%nat); reflexivity).
  tr ltac:(eapply (s_ret _ _ _ _ _ 1%nat); reflexivity).
  eapply bruns_snoc in Hr; [|eapply b_take; apply k_take; by rewrite lookup_insert].
  eapply bruns_snoc in Hr; [|pose proof (Prop_KqMon.lab_step [cd; cf] cz) as Hs; rewrite lab_z in Hs; eapply b_proc;
    apply (k_proc (after [cd; cf]) _ 1 NoteWrite (Some true) Afile (keys_of (after [cd; cf])) [] (after [cd; cf; cz]) ∅); [exact next_fd_fresh|exact Hs|]].
  2: { intros fd. assert ((delete 1%nat (<[1%nat := default 0 ((∅ : gmap nat N) !! 1%nat) .| NoteWrite]> (∅ : gmap nat N))) = ∅) as -> by (apply (delete_insert (∅ : gmap nat N) 1%nat); apply lookup_empty). apply nd_empty. }
  split.
  { unfold cr_after. rewrite lab_z. rewrite O2 in Hr. exact Hr. }
  split.
  { refine (conj (conj _ (conj _ (conj _ _))) (conj _ (conj _ _))); [apply map_to_list_empty_iff|..].
    1: vm_compute; reflexivity.
    all: reflexivity. }
  clear. split; [by vm_compute|]. split; [by eexists [_], _|]. split; [|split; [|split; [|split; [|split; [|split]]]]].
  - exists 1%nat, 2%positive, (Write kqueue). unfold cr_after. cbn [app]. do 9 (apply elem_of_list_further). left.
  - exists (Some true), Afile, (keys_of (after [cd; cf])), (inl 1%nat), NoteWrite, [FI (b "f") false]. split; [|split; [done|split; [by vm_compute|]]].
    + unfold cr_after. rewrite lab_z. cbn [app]. do 11 (apply elem_of_list_further). left.
    + apply (bool_decide_unpack _). by vm_compute.
  - intros x Hx. unfold cr_after in Hx. rewrite lab_f, lab_z in Hx. cbn [app] in Hx.
    repeat (apply elem_of_cons in Hx as [Hx|Hx]; [first [discriminate Hx|injection Hx as ->]|]); [exact I|exact I|exact I| |by apply elem_of_nil in Hx].
    split; [intros _; split; [by vm_compute|by right]|]. intros Hz. by vm_compute in Hz.
  - intros k m Hk. unfold cr_after in Hk. cbn [app] in Hk. repeat (apply elem_of_cons in Hk as [Hk|Hk]; [discriminate Hk|]). by apply elem_of_nil in Hk.
  - intros ei Hk. unfold cr_after in Hk. cbn [app] in Hk. repeat (apply elem_of_cons in Hk as [Hk|Hk]; [discriminate Hk|]). by apply elem_of_nil in Hk.
  - intros e Hk. unfold cr_after in Hk. cbn [app] in Hk. repeat (apply elem_of_cons in Hk as [Hk|Hk]; [discriminate Hk|]). by apply elem_of_nil in Hk.
  - intros j m ei tk Hk. unfold cr_after in Hk. cbn [app] in Hk. repeat (apply elem_of_cons in Hk as [Hk|Hk]; [discriminate Hk|]). by apply elem_of_nil in Hk.
Qed.
(** Without it the Create arrives: the hypotheses of C93_created_partial are met. *)
Definition zc : tevent := TE qf (Create kqueue) false.
Lemma lab_zc : lab [cd] cz = TEvent (Some true) Afile (keys_of (after [cd])) (inl 1%nat) NoteWrite [zc].
Proof.
  change (lab [cd] cz) with (TEvent (Some true) Afile (keys_of (after [cd])) (inl 1%nat) NoteWrite (TriggerEx.sent (lab [cd] cz))).
  by rewrite lab_z_alone.
Qed.
Transparent tc1.
Lemma tc1_zc : nr_dispatch G0 (st_tree tc1) (te_info zc) = ([KUser 1], false).
Proof. by vm_compute. Qed.
Opaque tc1.
Definition cc_before : list blab := [BTree LTau] ++ BTree (LRet 0 wc1 ok) :: [].
Definition cc_l5 : list blab := [BKq (KTake 1 NoteWrite); BKq (KProc (Some qa) (lab [cd] cz)); BSend zc;
  BTree (LTake 1 (te_info zc)); BTree LTau; BTree (LOffer 1 1 (te_info zc) true); BTree LTau].
Definition cc_after : list blab := cc_before ++ BKq (KNote 1 NoteWrite qa) :: cc_l5.
Definition tya : str → bool := λ q, bool_decide (q = qa).
Lemma usual_d c out : c_st c = tc1 → usual_dir (pth "a") (BS c (KS (after [cd]) ∅ None) out [lab [] cd]).
Proof.
  intros Hc. exists tya. unfold usual_dir. cbn [b_c b_k k_t]. rewrite Hc. destruct tc_log as (-> & _).
  eexists _, _. split; [|split; [|by vm_compute]].
  - pose proof (Prop_KqMon.lab_step [] cd) as Hs. rewrite lab_d in Hs.
    refine (kd_watch kq tya [] _ _ _ Aempty qa (Create kqueue) [] ROk _ (kd_init _ _) (kind_willing _) _ _ _ _ _ Hs).
    + done.
    + by vm_compute.
    + exists (pth "a"). split; [|by vm_compute]. apply (bool_decide_unpack _); by vm_compute.
    + split; [by vm_compute|constructor].
    + constructor.
  - by vm_compute.
Qed.
Example C93_created_ex : ∃ B1 B2 B, let w := watched [] 0 (pth "a") false 1 (Create kqueue) cr_l2 in
  qa = render slash (pth "a") ∧ qf = render slash (pth "a" ++ [b "f"]) ∧ bruns binit w B1 ∧ usual_dir (pth "a") B1 ∧ bruns B1 cc_before B2 ∧
  tw_at (k_t (b_k B2)) qf = None ∧ bruns B2 (BKq (KNote 1 NoteWrite qa) :: cc_l5) B ∧ at_rest B ∧
  stays [] 0 (pth "a") false 1 (Create kqueue) cr_l2 qa cc_after ∧ sound (w ++ cc_after) ∧ Forall proper (pth "a") ∧ proper (b "f") ∧
  NoteWrite .& t_write kq ≠ 0 ∧
  ∀ x, BKq x ∈ cc_l5 → (∃ A, scans x qa A ∧ finds A qa (b "f")) ∨ (∀ A, ¬ scans x qa A) ∧ leaves_out x qf.
Proof.
  destruct tc_log as (L1&_&P1&_). destruct owner_a as [O1 _]. pose proof (bruns_nil binit) as Hr. unfold binit at 2 in Hr.
  tr ltac:(eapply (s_call _ _ _ _ _ wc1); split; [done|]; apply nop_okb_ok; by vm_compute).
  tr ltac:(eapply (s_want _ _ _ _ _ 0%nat); reflexivity).
  tr ltac:(eapply (s_lock _ _ _ _ _ 0%nat); [reflexivity|noreaders]).
  eapply bruns_snoc in Hr; [|eapply (b_call _ _ _ _ (lab [] cd) (KS (after [cd]) ∅ None));
    [apply (k_call (after []) ∅ None (lab [] cd)); [done|exact next_fd_fresh|apply (Prop_KqMon.lab_step [] cd)|apply nd_empty]|left; exists 0%nat, wc1; reflexivity]].
  eapply bruns_snoc in Hr; [|eapply (b_crit _ _ _ _ 0%nat wc1 G0 tc1 ok); [reflexivity|exact G0_env|done|exact wc1_tc1|exact P1|rewrite L1, lab_d; repeat constructor]].
  match type of Hr with bruns _ _ ?B => exists B end. eexists. eexists. cbv zeta. split; [by vm_compute|]. split; [by vm_compute|]. split; [exact Hr|]. clear Hr.
  split; [by apply usual_d|].
  match goal with |- bruns ?B _ _ ∧ _ => pose proof (bruns_nil B) as Hr end.
  tr ltac:(eapply (s_unlock _ _ _ _ _ 0%nat); reflexivity).
  tr ltac:(eapply (s_ret _ _ _ _ _ 0%nat); reflexivity).
  split; [exact Hr|]. clear Hr. split; [by vm_compute|].
  match goal with |- bruns ?B _ _ ∧ _ => pose proof (bruns_nil B) as Hr end.
  eapply bruns_snoc in Hr; [|eapply b_note; apply (k_note (after [cd]) ∅ None 1 NoteWrite qa NoteWrite); [exact O1|by vm_compute|done|by intros j Hj]].
  eapply bruns_snoc in Hr; [|eapply b_take; apply k_take; by rewrite lookup_insert].
  eapply bruns_snoc in Hr; [|pose proof (Prop_KqMon.lab_step [cd] cz) as Hs; rewrite lab_zc in Hs; eapply b_proc;
    apply (k_proc (after [cd]) _ 1 NoteWrite (Some true) Afile (keys_of (after [cd])) [zc] (after [cd; cz]) ∅); [exact next_fd_fresh|exact Hs|]].
  2: { intros fd. assert ((delete 1%nat (<[1%nat := default 0 ((∅ : gmap nat N) !! 1%nat) .| NoteWrite]> (∅ : gmap nat N))) = ∅) as -> by (apply (delete_insert (∅ : gmap nat N) 1%nat); apply lookup_empty). apply nd_empty. }
  eapply bruns_snoc in Hr; [|eapply (b_send _ _ zc); eapply s_report; [done|simpl; unfold buffer; lia]].
  tr ltac:(eapply s_take; reflexivity).
  tr ltac:(eapply (s_rlock _ _ _ _ _ 1%nat (te_info zc) G0); [reflexivity|done|exact G0_env|exact tc1_zc]).
  tr ltac:(eapply (s_offer _ _ _ _ _ 1%nat _ 1%positive _ _ true); reflexivity).
  tr ltac:(eapply (s_runlock _ _ _ _ _ 1%nat); reflexivity).
  split.
  { unfold cc_l5. rewrite lab_zc. rewrite O1 in Hr. exact Hr. }
  split.
  { refine (conj (conj _ (conj _ (conj _ _))) (conj _ (conj _ _))); [apply map_to_list_empty_iff|..].
    1: vm_compute; reflexivity.
    all: reflexivity. }
  clear. refine (conj (conj _ (conj _ _)) (conj _ (conj _ (conj _ (conj _ _))))).
  - intros k Hk. exfalso. unfold watched, cr_l2, cc_after, cc_before, cc_l5 in Hk. rewrite lab_d, lab_zc in Hk. cbn in Hk.
    repeat (apply elem_of_cons in Hk as [Hk|Hk]; [discriminate Hk|]). by apply elem_of_nil in Hk.
  - intros ei q Hk. exfalso. unfold watched, cr_l2, cc_after, cc_before, cc_l5 in Hk. rewrite lab_d, lab_zc in Hk. cbn in Hk.
    repeat (apply elem_of_cons in Hk as [Hk|Hk]; [discriminate Hk|]). by apply elem_of_nil in Hk.
  - intros x Hx. unfold cc_after, cc_before, cc_l5 in Hx. rewrite lab_zc in Hx. cbn [app] in Hx.
    repeat (apply elem_of_cons in Hx as [Hx|Hx]; [first [discriminate Hx|injection Hx as ->]|]); [exact I|exact I| |by apply elem_of_nil in Hx].
    split; [intros _; split; [by vm_compute|by right]|]. intros Hz. by vm_compute in Hz.
  - intros e He. unfold watched, cr_l2, cc_after, cc_before, cc_l5 in He. rewrite lab_d, lab_zc in He. cbn [app] in He.
    repeat (apply elem_of_cons in He as [He|He]; [first [discriminate He|injection He as ->]|]); [|by apply elem_of_nil in He].
    split_and!; [done|by apply land_zero_disj|]. exists pf. split; [|by vm_compute]. apply Prop_Linux.proper_upath; [done|]. apply (bool_decide_unpack _); by vm_compute.
  - apply (bool_decide_unpack _); by vm_compute.
  - apply (bool_decide_unpack _); by vm_compute.
  - by vm_compute.
  - intros x Hx. unfold cc_l5 in Hx. rewrite lab_zc in Hx.
    repeat (apply elem_of_cons in Hx as [Hx|Hx]; [first [discriminate Hx|injection Hx as ->]|]); [| |by apply elem_of_nil in Hx].
    + right. split; [|exact I]. intros A (st&ord&k&g&evn&Heq&_). discriminate Heq.
    + left. exists Afile. split; [by exists (Some true), (keys_of (after [cd])), (inl 1%nat), NoteWrite, [zc]|].
      split; [apply kind_willing|]. exists [FI (b "f") false], false. split_and!; [by vm_compute| | |by left].
      * repeat constructor; apply (bool_decide_unpack _); by vm_compute.
      * apply (bool_decide_unpack _); by vm_compute.
Qed.
(** The hypotheses of C93_gone_partial and C93_gone_dir_partial are met: channel 1 watches the
    file or directory /a/f for Remove, and it is removed. *)
Definition wg : nop := NWatch pf false 1 (Remove kqueue).
Definition tg : st := (nstep slash G0 init_st wg).1.
Lemma wg_tg : nstep slash G0 init_st wg = (tg, ok).
Proof. assert ((nstep slash G0 init_st wg).2 = ok) as H by (by vm_compute). unfold tg. by rewrite <-(Prop_TreeConc.pair_snd _ _ H). Qed.
Lemma tg_log : st_log tg = [(WWatch qf (Remove kqueue), true)] ∧ st_panic tg = false.
Proof. by vm_compute. Qed.
Definition Ag : answers := kind (λ q, Some []).
Definition cg (isd : bool) : cmd := XWatch (Some isd) Ag qf (Remove kqueue).
Definition cy : cmd := XEvent None Ag (inl 1%nat) NoteDelete.
Definition zg (isd : bool) : tevent := TE qf (Remove kqueue) isd.
Lemma lab_g isd : lab [] (cg isd) = TWatch (Some isd) Ag qf (Remove kqueue) ROk.
Proof. destruct isd; by vm_compute. Qed.
Lemma lab_y isd : lab [(cg isd)] cy = TEvent None Ag (keys_of (after [(cg isd)])) (inl 1%nat) NoteDelete [(zg isd)].
Proof.
  change (lab [(cg isd)] cy) with (TEvent None Ag (keys_of (after [(cg isd)])) (inl 1%nat) NoteDelete (TriggerEx.sent (lab [(cg isd)] cy))).
  assert (TriggerEx.sent (lab [(cg isd)] cy) = [(zg isd)]) as -> by (destruct isd; by vm_compute). done.
Qed.
Lemma tg_zg isd : nr_dispatch G0 (st_tree tg) (te_info (zg isd)) = ([KUser 1], false).
Proof. destruct isd; by vm_compute. Qed.
Lemma owner_g isd : owner (after [(cg isd)]) 1 = Some qf.
Proof. destruct isd; by vm_compute. Qed.
Section gone_ex.
Context (isd : bool).
Definition cg_l2 : list blab := [BTree LTau; BTree LTau; BKq (KCall (lab [] (cg isd)))].
Definition cg_before : list blab := [BTree LTau] ++ BTree (LRet 0 wg ok) :: [].
Definition cg_l5 : list blab := [BKq (KTake 1 NoteDelete); BKq (KProc (Some qf) (lab [(cg isd)] cy)); BSend (zg isd);
  BTree (LTake 1 (te_info (zg isd))); BTree LTau; BTree (LOffer 1 1 (te_info (zg isd)) true); BTree LTau].
Definition cg_after : list blab := cg_before ++ BKq (KNote 1 NoteDelete qf) :: cg_l5.
Lemma drives_g : ∃ L r, kdrives kq (λ _, isd) [(WWatch qf (Remove kqueue), true)] L r (after [(cg isd)]) ∧ direct r qf ≠ 0.
Proof.
  eexists _, _. split.
  - pose proof (Prop_KqMon.lab_step [] (cg isd)) as Hs. rewrite lab_g in Hs.
    refine (kd_watch kq (λ _, isd) [] _ _ _ Ag qf (Remove kqueue) [] ROk _ (kd_init _ _) (kind_willing _) _ _ _ _ _ Hs).
    + done.
    + by vm_compute.
    + exists pf. split; [|by vm_compute]. apply (bool_decide_unpack _); by vm_compute.
    + clear. destruct isd; [split; [by vm_compute|constructor]|done].
    + constructor.
  - by vm_compute.
Qed.
Opaque tg.
Lemma gone_run : ∃ B1 B2 B, let w := watched [] 0 pf false 1 (Remove kqueue) cg_l2 in
  bruns binit w B1 ∧ st_log (c_st (b_c B1)) = [(WWatch qf (Remove kqueue), true)] ∧ k_t (b_k B1) = after [(cg isd)] ∧ bruns B1 cg_before B2 ∧
  none_gone (b_k B2) 1 ∧ bruns B2 (BKq (KNote 1 NoteDelete qf) :: cg_l5) B ∧ at_rest B ∧
  no_stop_since [] (btrees (w ++ cg_after)) 1 ∧ not_removed kqueue slash (btrees (w ++ cg_after)) pf ∧
  (∀ z, BKq z ∈ cg_before → spares z qf) ∧ (∀ z, BKq z ∈ cg_l5 → spares z qf ∨ gives_up z qf) ∧
  sound (w ++ cg_after) ∧ (∀ ev b, BSend (TE qf ev b) ∈ cg_after → incl_ev ev (Remove kqueue)).
Proof.
  destruct tg_log as (L1&P1). pose proof (owner_g isd) as O1. pose proof (bruns_nil binit) as Hr. unfold binit at 2 in Hr.
  tr ltac:(eapply (s_call _ _ _ _ _ wg); split; [done|]; apply nop_okb_ok; by vm_compute).
  tr ltac:(eapply (s_want _ _ _ _ _ 0%nat); reflexivity).
  tr ltac:(eapply (s_lock _ _ _ _ _ 0%nat); [reflexivity|noreaders]).
  eapply bruns_snoc in Hr; [|eapply (b_call _ _ _ _ (lab [] (cg isd)) (KS (after [(cg isd)]) ∅ None));
    [apply (k_call (after []) ∅ None (lab [] (cg isd))); [done|exact next_fd_fresh|apply (Prop_KqMon.lab_step [] (cg isd))|apply nd_empty]|left; exists 0%nat, wg; reflexivity]].
  eapply bruns_snoc in Hr; [|eapply (b_crit _ _ _ _ 0%nat wg G0 tg ok); [reflexivity|exact G0_env|done|exact wg_tg|exact P1|rewrite L1, lab_g; repeat constructor]].
  match type of Hr with bruns _ _ ?B => exists B end. eexists. eexists. cbv zeta. split; [exact Hr|]. clear Hr.
  split; [exact L1|]. split; [reflexivity|].
  match goal with |- bruns ?B _ _ ∧ _ => pose proof (bruns_nil B) as Hr end.
  tr ltac:(eapply (s_unlock _ _ _ _ _ 0%nat); reflexivity).
  tr ltac:(eapply (s_ret _ _ _ _ _ 0%nat); reflexivity).
  split; [exact Hr|]. clear Hr. split; [intros g [Hg|Hg]; [cbn in Hg; by rewrite lookup_empty in Hg|done]|].
  match goal with |- bruns ?B _ _ ∧ _ => pose proof (bruns_nil B) as Hr end.
  eapply bruns_snoc in Hr; [|eapply b_note; apply (k_note (after [(cg isd)]) ∅ None 1 NoteDelete qf NoteDelete); [exact O1|clear; destruct isd; by vm_compute|done|by intros j Hj]].
  eapply bruns_snoc in Hr; [|eapply b_take; apply k_take; by rewrite lookup_insert].
  eapply bruns_snoc in Hr; [|pose proof (Prop_KqMon.lab_step [(cg isd)] cy) as Hs; rewrite lab_y in Hs; eapply b_proc;
    apply (k_proc (after [(cg isd)]) _ 1 NoteDelete None Ag (keys_of (after [(cg isd)])) [(zg isd)] (after [(cg isd); cy]) ∅); [exact next_fd_fresh|exact Hs|]].
  2: { intros fd. assert ((delete 1%nat (<[1%nat := default 0 ((∅ : gmap nat N) !! 1%nat) .| NoteDelete]> (∅ : gmap nat N))) = ∅) as -> by (apply (delete_insert (∅ : gmap nat N) 1%nat); apply lookup_empty). apply nd_empty. }
  eapply bruns_snoc in Hr; [|eapply (b_send _ _ (zg isd)); eapply s_report; [done|simpl; unfold buffer; lia]].
  tr ltac:(eapply s_take; reflexivity).
  tr ltac:(eapply (s_rlock _ _ _ _ _ 1%nat (te_info (zg isd)) G0); [reflexivity|done|exact G0_env|exact (tg_zg isd)]).
  tr ltac:(eapply (s_offer _ _ _ _ _ 1%nat _ 1%positive _ _ true); reflexivity).
  tr ltac:(eapply (s_runlock _ _ _ _ _ 1%nat); reflexivity).
  split.
  { unfold cg_l5. rewrite lab_y. rewrite O1 in Hr. exact Hr. }
  split.
  { refine (conj (conj _ (conj _ (conj _ _))) (conj _ (conj _ _))); [apply map_to_list_empty_iff|..].
    1: vm_compute; reflexivity.
    all: reflexivity. }
  clear. refine (conj _ (conj _ (conj _ (conj _ (conj _ _))))).
  - intros k Hk. exfalso. unfold watched, cg_l2, cg_after, cg_before, cg_l5 in Hk. rewrite lab_g, lab_y in Hk. cbn in Hk.
    repeat (apply elem_of_cons in Hk as [Hk|Hk]; [discriminate Hk|]). by apply elem_of_nil in Hk.
  - intros ei q Hk. exfalso. unfold watched, cg_l2, cg_after, cg_before, cg_l5 in Hk. rewrite lab_g, lab_y in Hk. cbn in Hk.
    repeat (apply elem_of_cons in Hk as [Hk|Hk]; [discriminate Hk|]). by apply elem_of_nil in Hk.
  - intros x Hx. unfold cg_before in Hx. cbn [app] in Hx. repeat (apply elem_of_cons in Hx as [Hx|Hx]; [discriminate Hx|]). by apply elem_of_nil in Hx.
  - intros x Hx. unfold cg_l5 in Hx. rewrite lab_y in Hx.
    repeat (apply elem_of_cons in Hx as [Hx|Hx]; [first [discriminate Hx|injection Hx as ->]|]); [left; exact I| |by apply elem_of_nil in Hx].
    right. exists None, Ag, (keys_of (after [(cg isd)])), (inl 1%nat), NoteDelete, [(zg isd)]. split; [done|]. by vm_compute.
  - intros e He. unfold watched, cg_l2, cg_after, cg_before, cg_l5 in He. rewrite lab_g, lab_y in He. cbn [app] in He.
    repeat (apply elem_of_cons in He as [He|He]; [first [discriminate He|injection He as ->]|]); [|by apply elem_of_nil in He].
    split_and!; [done|by apply land_zero_disj|]. exists pf. split; [|by vm_compute]. apply Prop_Linux.proper_upath; [done|]. apply (bool_decide_unpack _); by vm_compute.
  - intros ev b He. unfold cg_after, cg_before, cg_l5 in He. rewrite lab_y in He. cbn [app] in He.
    repeat (apply elem_of_cons in He as [He|He]; [first [discriminate He|injection He as -> _]|]); [by intros j Hj|by apply elem_of_nil in He].
Qed.
End gone_ex.
Example C93_gone_ex isd : ∃ B1 B2 B, let w := watched [] 0 pf false 1 (Remove kqueue) (cg_l2 isd) in
  bruns binit w B1 ∧ (if isd then usual_dir pf B1 else usual pf qf B1) ∧ bruns B1 cg_before B2 ∧
  none_gone (b_k B2) 1 ∧ bruns B2 (BKq (KNote 1 NoteDelete qf) :: cg_l5 isd) B ∧ at_rest B ∧
  no_stop_since [] (btrees (w ++ cg_after isd)) 1 ∧ not_removed kqueue slash (btrees (w ++ cg_after isd)) pf ∧
  (∀ z, BKq z ∈ cg_before → spares z qf) ∧ (∀ z, BKq z ∈ cg_l5 isd → spares z qf ∨ gives_up z qf) ∧
  sound (w ++ cg_after isd) ∧ (∀ ev b, BSend (TE qf ev b) ∈ cg_after isd → incl_ev ev (Remove kqueue)) ∧
  pf = pth "a" ++ [b "f"] ∧ qf = render slash (pth "a" ++ [b "f"]) ∧ Forall proper (pth "a") ∧ proper (b "f") ∧
  NoteDelete .& native_gone kq ≠ 0 ∧ SpecTrigger.reported kq NoteDelete (Remove kqueue) ∧ disj_ev (Remove kqueue) (internal kqueue) ∧
  disj_ev (Remove kqueue) (Write kqueue .| t_write kq).
Proof.
  destruct (gone_run isd) as (B1&B2&B&H1&HL&HT&H2&H3&H4&H5&H6&H7&H8&H9&HA&HB). exists B1, B2, B. cbv zeta.
  split; [exact H1|]. split.
  { destruct (drives_g isd) as (L&r&Hk&Hd). destruct isd.
    - exists (λ _, true), L, r. rewrite HL, HT, render_pf. done.
    - exists (λ _, false), L, r. rewrite HL, HT, render_pf. split_and!; [done|done|by left|done]. }
  do 10 (split; [assumption|]). clear. 
  refine (conj _ (conj _ (conj _ (conj _ (conj _ (conj _ (conj _ _))))))).
  - done.
  - by vm_compute.
  - apply (bool_decide_unpack _); by vm_compute.
  - apply (bool_decide_unpack _); by vm_compute.
  - by vm_compute.
  - right. exists NoteDelete. split; [apply (bool_decide_unpack _); by vm_compute|by vm_compute].
  - apply land_zero_disj. by vm_compute.
  - apply land_zero_disj. by vm_compute.
Qed.
Print Assumptions C93_created_partial.
Print Assumptions C93_gone_partial.
Print Assumptions C93_gone_dir_partial.
Print Assumptions C93_gone_below_partial.
Print Assumptions C93_created_below_partial.
Print Assumptions C93_created_refuted.
Print Assumptions C93_delivered_partial.
Print Assumptions C93_below_partial.
Print Assumptions C93_only.
Print Assumptions C93_rewatch_refuted.
