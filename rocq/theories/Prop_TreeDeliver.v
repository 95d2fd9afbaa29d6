(** * Property theorems C89: delivery under every schedule of the goroutines *)
From Verif Require Import Base Event Watchpoint WatchpointFacts Paths PathsFacts Loop LoopFacts
  Node NodeFacts SpecTree WalkFacts RootFacts NonRec NonRecWp Rec SpecNonRec SpecNonRecOS NonRecDisp NonRecStop SpecOS SpecRec
  NonRecFacts NonRecOps NonRecReg NonRecStep NonRecRun RecMask RecFacts RecReg RecStop RecDisp RecStep RecRun
  Prop_Basics Prop_NonRec Prop_Rec TreeConc SpecTreeConc TreeConcFacts Prop_TreeConc SpecTreeDeliver TreeDeliverFacts.
Local Open Scope N_scope.

(** ** Registrations and deliveries *)
Section regs.
Context (P : platform).
Notation regs := (path → positive → N).
Lemma gets_pos (g : regs) n ev q : (0 < gets g n ev q)%nat ↔ incl_ev ev (g q n).
Proof.
  unfold gets. destruct (decide (ev .& g q n = ev)) as [Hz|Hz]; split; try lia.
  - intros _. rewrite <-Hz. clear. bits.
  - intros H. destruct Hz. clear - H. bits.
Qed.
Lemma deliveries_iff (g : regs) n ev d c :
  (0 < deliveries P g n ev d c)%nat ↔
  incl_ev ev (g (d ++ [c]) n) ∨ incl_ev ev (g d n) ∨ ∃ a, a `prefix_of` d ∧ a ≠ d ∧ incl_ev (ev .| recursive P) (g a n).
Proof.
  rewrite <-!gets_pos. unfold deliveries.
  assert ((0 < foldr Nat.add 0 ((λ k, gets g n (ev .| recursive P) (take k d)) <$> seq 0 (length d)))%nat ↔
    ∃ a, a `prefix_of` d ∧ a ≠ d ∧ incl_ev (ev .| recursive P) (g a n)) as <-; [|lia].
  assert (∀ (f : nat → nat) l, (0 < foldr Nat.add 0 (f <$> l))%nat ↔ ∃ k, k ∈ l ∧ (0 < f k)%nat) as Hs.
  { intros f l. induction l as [|k l IH]; [split; [simpl; lia|set_solver]|]. rewrite fmap_cons. simpl. split.
    - intros H. destruct (f k) eqn:Ek; [apply IH in H as (k'&?&?); exists k'; set_solver|exists k; set_solver by lia].
    - intros (k'&[->|Hk]%elem_of_cons&Hf); [lia|]. assert (0 < foldr Nat.add 0 (f <$> l))%nat by (apply IH; eauto). lia. }
  rewrite Hs. split.
  - intros (k&[_ Hk]%elem_of_seq&Hf%gets_pos). exists (take k d). split_and!; [apply prefix_take| |done].
    intros Heq. apply (f_equal length) in Heq. rewrite take_length in Heq. lia.
  - intros (a&[r ->]&Hne&Hi). exists (length a). split.
    + apply elem_of_seq. rewrite app_length. destruct r; [by rewrite app_nil_r in Hne|simpl; lia].
    + rewrite take_app. by apply gets_pos.
Qed.
Lemma deliveries_concerns (g : regs) n ev p isrec e d c :
  concerns p isrec e ev d c → incl_ev (e .| rec_bit P isrec) (g p n) → (0 < deliveries P g n ev d c)%nat.
Proof.
  intros [Hev Hp] Hg. apply deliveries_iff.
  assert (incl_ev ev (g p n)) as Hi by (clear - Hev Hg; bits).
  destruct Hp as [->|[->|[-> Hp]]]; [by left|right; by left|].
  destruct (decide (p = d)) as [->|Hne]; [right; by left|]. right. right. exists p. split_and!; [done|done|].
  simpl in Hg. clear - Hev Hg. bits.
Qed.
(** How registrations can grow and that they stay: for both trees. *)
Definition upper (o : nop) (g g' : regs) : Prop := ∀ q n,
  match o with
  | NWatch p isrec m e => incl_ev (g' q n) (g q n) ∨ p = q ∧ m = n ∧ incl_ev (g' q n) (g q n .| (e .| rec_bit P isrec))
  | NStop m => incl_ev (g' q n) (g q n) ∧ (m = n → g' q n = 0)
  | NEvent _ _ => incl_ev (g' q n) (g q n)
  end.
Lemma reg_after_upper o r g g' : reg_after P o r g g' → upper o g g'.
Proof.
  destruct o as [p isrec m e|m|ev p]; simpl; intros H q n.
  - destruct H as [Hoth H]. destruct (decide ((q, n) = (p, m))) as [[= -> ->]|Hne].
    + right. split_and!; [done|done|]. destruct r, isrec.
      all: try (rewrite H; simpl; clear; bits).
      all: destruct H as [_ H]; simpl; clear - H; bits.
    + left. rewrite Hoth by done. clear. bits.
  - rewrite H. destruct (decide (n = m)) as [->|]; [split; [clear; bits|done]|split; [clear; bits|congruence]].
  - rewrite H. destruct (decide _); clear; bits.
Qed.
Lemma rreg_after_upper o r g g' : rreg_after P o r g g' → upper o g g'.
Proof.
  destruct o as [p isrec m e|m|ev p]; simpl; intros H q n.
  - destruct H as [Hoth H]. destruct (decide ((q, n) = (p, m))) as [[= -> ->]|Hne].
    + right. split_and!; [done|done|]. destruct r.
      all: try (rewrite H; simpl; clear; bits).
      all: destruct H as [_ H]; simpl; clear - H; bits.
    + left. rewrite Hoth by done. clear. bits.
  - rewrite H. destruct (decide (n = m)) as [->|]; [split; [clear; bits|done]|split; [clear; bits|congruence]].
  - done.
Qed.
Lemma nregs_snoc tr o r g' : nregs P (tr ++ [(o, r)]) g' → ∃ g, nregs P tr g ∧ reg_after P o r g g'.
Proof.
  intros H. inversion H as [? ? Ha|? g ? ? ? Hg Hra Ha]; [by destruct tr|].
  apply app_inj_tail in Ha as [-> [= -> ->]]. by exists g.
Qed.
Lemma rregs_snoc tr o r g' : rregs P (tr ++ [(o, r)]) g' → ∃ g, rregs P tr g ∧ rreg_after P o r g g'.
Proof.
  intros H. inversion H as [? ? Ha|? g ? ? ? Hg Hra Ha]; [by destruct tr|].
  apply app_inj_tail in Ha as [-> [= -> ->]]. by exists g.
Qed.
Lemma nregs_nil g : nregs P [] g → ∀ p n, g p n = 0.
Proof. intros H. inversion H as [? ? Ha|tr ? ? ? ? ? ? Ha]; [done|by destruct tr]. Qed.
Lemma rregs_nil g : rregs P [] g → ∀ p n, g p n = 0.
Proof. intros H. inversion H as [? ? Ha|tr ? ? ? ? ? ? Ha]; [done|by destruct tr]. Qed.
(** What is registered was asked for by a Watch, and not withdrawn since. *)
Section standing.
Context (R : trace → regs → Prop) (dirs : event_info → trace → Prop).
Context (R0 : ∀ g, R [] g → ∀ p n, g p n = 0).
Context (RS : ∀ tr o r g', R (tr ++ [(o, r)]) g' → ∃ g, R tr g ∧ upper o g g').
Context (RD : ∀ ei t, dirs ei t → t = [] ∨ ∃ ev p r, t = [(NEvent ev p, r)]).
Lemma standing_snoc ls l n q isrec e : (∀ k r', l ≠ LCrit k (NStop n) r') → standing ls n q isrec e → standing (ls ++ [l]) n q isrec e.
Proof.
  intros Hl (a&i&r&b&->&Hb). exists a, i, r, (b ++ [l]). split; [by rewrite <-app_assoc|].
  intros k r' [?|Hin%elem_of_list_singleton]%elem_of_app; [by eapply Hb|]. by eapply Hl.
Qed.
Lemma registered_standing ls tr g n q x : history dirs ls tr → R tr g → has (g q n) x →
  ∃ isrec e, standing ls n q isrec e ∧ has (e .| rec_bit P isrec) x.
Proof.
  intros Hh. revert g. induction Hh as [|ls tr i o r Hh IH|ls tr ei t Hh IH Ht|ls tr l Hh IH H1 H2]; intros g HR Hx.
  - rewrite (R0 _ HR) in Hx. by apply has_0 in Hx.
  - apply RS in HR as (g0&HR&Hu). specialize (Hu q n). destruct o as [p isrec m e|m|ev p].
    + destruct Hu as [Hu|(->&->&Hu)].
      * destruct (IH _ HR (Hu _ Hx)) as (ir&e'&Hs&He). exists ir, e'. split; [by apply standing_snoc|done].
      * destruct (decide (has (e .| rec_bit P isrec) x)) as [He|He].
        -- exists isrec, e. split; [|done]. exists ls, i, r, []. split; [done|]. intros ?? Hin. by apply elem_of_nil in Hin.
        -- apply Hu, has_lor in Hx as [Hx|Hx]; [|done]. destruct (IH _ HR Hx) as (ir&e'&Hs&He').
           exists ir, e'. split; [by apply standing_snoc|done].
    + destruct Hu as [Hu Hz]. destruct (decide (m = n)) as [->|Hne].
      * rewrite Hz in Hx by done. by apply has_0 in Hx.
      * destruct (IH _ HR (Hu _ Hx)) as (ir&e'&Hs&He). exists ir, e'. split; [|done]. apply standing_snoc; [congruence|done].
    + destruct (IH _ HR (Hu _ Hx)) as (ir&e'&Hs&He). exists ir, e'. split; [by apply standing_snoc|done].
  - destruct (RD _ _ Ht) as [->|(ev&p&r&->)].
    + rewrite app_nil_r in HR. destruct (IH _ HR Hx) as (ir&e'&Hs&He). exists ir, e'. split; [by apply standing_snoc|done].
    + apply RS in HR as (g0&HR&Hu). destruct (IH _ HR (Hu _ _ _ Hx)) as (ir&e'&Hs&He).
      exists ir, e'. split; [by apply standing_snoc|done].
  - destruct (IH _ HR Hx) as (ir&e'&Hs&He). exists ir, e'. split; [|done]. apply standing_snoc; [|done].
    intros k r' ->. by eapply H1.
Qed.
End standing.
End regs.

(** ** The non-recursive tree *)
Section nonrec.
Context (P : platform) (HP : platform_ok P) (HW : windows P = false) (sepc : ascii).
Notation nrun := (nrun P sepc).
Notation hist := (history (dirs_nonrec sepc)).
Lemma nonrec_dirs tr s E ei : nexec P sepc tr s → nenv P sepc E → nreport_ok P sepc ei →
  st_panic (t_int (nonrec_ops sepc) E s ei) = false →
  ∃ t, dirs_nonrec sepc ei t ∧ nexec P sepc (tr ++ t) (t_int (nonrec_ops sepc) E s ei).
Proof.
  intros Hx HE (_&_&p&Hp&Heq) _. exists [(NEvent (ei_event ei) p, ROk)]. split; [by exists p|].
  econstructor; [done|done|done|]. simpl. f_equal. destruct ei as [ev q isd ft]. simpl in Heq. by subst q.
Qed.
Lemma nrun_history ls c : nrun ls c → ∃ tr, hist ls tr ∧ nexec P sepc tr (c_st c).
Proof. apply (run_history _ _ _ _ _ _ P (nonrec_spec P HP HW sepc) nonrec_dirs). Qed.
Lemma plain_ok_hist ls tr : hist ls tr → plain_ok ls → no_failure tr.
Proof.
  intros Hh Hp. eapply Forall_impl; [by apply history_from|]. intros [o r] [(k&Hk)|(ei&t&_&(p&_&->)&Hx)].
  - destruct o as [p [] n e| |]; [done| |done..]. by eapply Hp.
  - apply elem_of_list_singleton in Hx. by injection Hx as -> ->.
Qed.
Lemma plain_ok_app la lb : plain_ok (la ++ lb) → plain_ok la.
Proof. intros H i p n e r Hin. eapply H, elem_of_app. by left. Qed.
(** *** Exact delivery *)
(** When the goroutine of an event has made its sends, there is a moment after it was
    started and before its first send such that every channel has been offered that event,
    and no other, by this goroutine exactly as often as demanded by what the channels had
    asked for up to this moment. *)
Theorem C89_exact ls c j ei d x :
  nrun ls c → plain_ok ls → LTake j ei ∈ ls → sends_made c j → reported P sepc ei d x →
  ∃ la lb tr, ls = la ++ lb ∧ LTake j ei ∈ la ∧ (∀ n, offered_by j n la = []) ∧ hist la tr ∧
    ∀ n, offered_by j n ls = replicate (deliveries P (asked P tr) n (ei_event ei) d x) ei.
Proof.
  intros Hr Hp Hin Hs Hrep. destruct (sent_all _ _ _ _ _ _ _ _ Hr Hin Hs) as (la&lb&c0&E&->&Hr0&Ht&Hno&HE&Hoff).
  destruct (nrun_history _ _ Hr0) as (tr&Hh&Hx). exists la, lb, tr. split_and!; try done.
  intros n. rewrite Hoff. f_equal.
  eapply (C17_exact_delivery P HP HW sepc tr (c_st c0) E ei d x n); try done.
  eapply plain_ok_hist; [done|by eapply plain_ok_app].
Qed.
(** When plain Watch calls fail, as often as demanded by some registrations that the history up
    to this moment allows. *)
Theorem C89_exact_always ls c j ei d x :
  nrun ls c → LTake j ei ∈ ls → sends_made c j → reported P sepc ei d x →
  ∃ la lb tr g, ls = la ++ lb ∧ LTake j ei ∈ la ∧ (∀ n, offered_by j n la = []) ∧ hist la tr ∧ nregs P tr g ∧
    ∀ n, offered_by j n ls = replicate (deliveries P g n (ei_event ei) d x) ei.
Proof.
  intros Hr Hin Hs Hrep. destruct (sent_all _ _ _ _ _ _ _ _ Hr Hin Hs) as (la&lb&c0&E&->&Hr0&Ht&Hno&HE&Hoff).
  destruct (nrun_history _ _ Hr0) as (tr&Hh&Hx).
  destruct (C17_exact_delivery_always P HP HW sepc tr _ Hx) as (g&Hg&Hdel).
  exists la, lb, tr, g. split_and!; try done. intros n. rewrite Hoff. f_equal. by eapply Hdel.
Qed.
(** *** What is asked for is delivered *)
Lemma nregs_kept t1 t2 p isrec n e g :
  nregs P (t1 ++ (NWatch p isrec n e, ROk) :: t2) g →
  (∀ r, (NStop n, r) ∉ t2) → (∀ q r, (NEvent (Remove P) q, r) ∈ t2 → ¬ q `prefix_of` p) →
  incl_ev (e .| rec_bit P isrec) (g p n).
Proof.
  revert g. induction t2 as [|[o r] t2 IH] using rev_ind; intros g Hg Hs He.
  - apply nregs_snoc in Hg as (g0&_&[_ Hg]). rewrite Hg. clear. bits.
  - rewrite app_comm_cons, app_assoc in Hg. apply nregs_snoc in Hg as (g0&Hg0&Hra).
    assert (incl_ev (e .| rec_bit P isrec) (g0 p n)) as Hi.
    { apply IH; [done| |].
      - intros r' Hin. apply (Hs r'), elem_of_app. by left.
      - intros q r' Hin. apply (He q r'), elem_of_app. by left. }
    destruct o as [q ir m e'|m|ev q]; simpl in Hra.
    + destruct Hra as [Hoth Hra]. destruct (decide ((p, n) = (q, m))) as [[= -> ->]|Hne]; [|by rewrite Hoth].
      destruct r, ir; try (rewrite Hra; clear - Hi; bits); try (destruct Hra as [Hra _]; clear - Hi Hra; bits).
    + rewrite Hra, decide_False; [done|]. intros ->. apply (Hs r), elem_of_app. right. by left.
    + rewrite Hra, decide_False; [done|]. intros [-> Hq]. apply (He q r); [|done]. apply elem_of_app. right. by left.
Qed.
(** A channel whose Watch returned without error is offered every event the Watch
    concerns that the dispatcher takes after the return, as long as no Stop of the channel
    is called and no removal of the watched path is processed; whatever else is called and
    fails, and whatever the order in which the goroutines run. *)
Theorem C89_watched l1 i p isrec n e l2 l3 j ei l4 c d x :
  let ls := l1 ++ LCall i (NWatch p isrec n e) :: l2 ++ LRet i (NWatch p isrec n e) ROk :: l3 ++ LTake j ei :: l4 in
  nrun ls c → sends_made c j → reported P sepc ei d x → concerns p isrec e (ei_event ei) d x →
  no_stop_since l1 ls n → not_removed P sepc ls p →
  ∃ b, LOffer j n ei b ∈ l4.
Proof.
  intros ls Hr Hs Hrep Hco Hst Hrm. set (w := NWatch p isrec n e) in *.
  set (m := l1 ++ LCall i w :: l2 ++ LRet i w ROk :: l3).
  assert (ls = m ++ LTake j ei :: l4) as Hls.
  { unfold ls, m. repeat (simpl; rewrite <-?app_assoc). done. }
  destruct (sent_all _ _ _ _ ls c j ei Hr) as (la&lb&c0&E&Hla&Hr0&Ht&Hno&HE&Hoff); [|done|].
  { rewrite Hls. apply elem_of_app. right. by left. }
  destruct (take_prefix (nonrec_ops sepc) (nenv P sepc) (ncall_ok P sepc) (nreport_ok P sepc) m j ei l4 la lb c) as (la'&Hla'); [by rewrite <-Hls|by rewrite <-Hls|done|].
  destruct (nrun_history _ _ Hr0) as (tr&Hh&Hx).
  destruct (C17_exact_delivery_always P HP HW sepc tr _ Hx) as (g&Hg&Hdel).
  assert (∀ l, l ∈ la → l ∈ ls) as Hsub by (intros l Hl; rewrite Hla; apply elem_of_app; by left).
  assert (la = l1 ++ LCall i w :: l2 ++ LRet i w ROk :: (l3 ++ LTake j ei :: la')) as Heq.
  { rewrite Hla'. unfold m. repeat (simpl; rewrite <-?app_assoc). done. }
  rewrite Heq in Hh, Hr0.
  destruct (watch_standing _ _ _ _ (dirs_nonrec sepc) l1 i p isrec n e ROk l2 _ _ tr Hr0) as (t1&t2&b&->&Hf&Hb&Hbs); [|done|].
  { intros k Hk. apply Hst, Hsub. by rewrite Heq. }
  assert (0 < deliveries P g n (ei_event ei) d x)%nat as Hpos.
  { eapply deliveries_concerns; [done|]. eapply nregs_kept; [done| |].
    - intros r Hin. eapply Forall_forall in Hf; [|exact Hin]. destruct Hf as [(k&Hk)|(ei'&t&_&(q&_&->)&Hx')]; [by eapply Hb|].
      by apply elem_of_list_singleton in Hx'.
    - intros q r Hin. eapply Forall_forall in Hf; [|exact Hin]. destruct Hf as [(k&Hk)|(ei'&t&Hi&(q'&Hq&->)&Hx')].
      + exfalso. assert (LCrit k (NEvent (Remove P) q) r ∈ ls) as Hk2.
        { apply Hsub. rewrite Heq. by apply Hbs. }
        destruct (crit_ok _ _ _ _ _ _ _ _ _ Hr Hk2) as [[] _].
      + apply elem_of_list_singleton in Hx'. injection Hx' as Hev -> ->.
        apply (Hrm ei' q'); [|done|done]. apply Hsub. rewrite Heq. by apply Hbs. }
  specialize (Hoff n). rewrite <-(Hdel E ei d x n) in Hpos by done.
  assert (ei ∈ offered_by j n ls) as Hof.
  { rewrite Hoff. apply elem_of_replicate. split; [done|]. unfold offered in Hpos. simpl. lia. }
  rewrite Hls, offered_by_app in Hof. apply elem_of_app in Hof as [Hof|Hof].
  - exfalso. rewrite Hls in Hr. apply elem_of_list_omap in Hof as (l&Hl&Hl2). destruct l as [| | | | |j' n' ei' b'| |]; try done.
    simpl in Hl2. destruct (decide _) as [[-> ->]|]; [|done]. eapply (take_fresh _ _ _ _ _ _ _ _ _ Hr); [exact Hl|done].
  - apply elem_of_list_omap in Hof as (l&Hl&Hl2). destruct l as [| | | | |j' n' ei' b'| |]; try done.
    simpl in Hl2. destruct (decide _) as [[-> ->]|]; [|done]. injection Hl2 as ->.
    apply elem_of_cons in Hl as [?|Hl]; [done|]. by exists b'.
Qed.
(** Every report is taken in the end, so a channel whose Watch returned before the report
    is offered the event by the time there is nothing left to do. *)
Theorem C89_delivered l1 i p isrec n e l2 l3 ei l4 c d x :
  let ls := l1 ++ LCall i (NWatch p isrec n e) :: l2 ++ LRet i (NWatch p isrec n e) ROk :: l3 ++ LReport ei :: l4 in
  nrun ls c → quiescent c → reported P sepc ei d x → concerns p isrec e (ei_event ei) d x →
  no_stop_since l1 ls n → not_removed P sepc ls p →
  ∃ j b, LOffer j n ei b ∈ l4.
Proof.
  intros ls Hr (Hq1&_&Hq&_) Hrep Hco Hst Hrm. set (w := NWatch p isrec n e) in *.
  assert (ls = (l1 ++ LCall i w :: l2 ++ LRet i w ROk :: l3) ++ LReport ei :: l4) as Hls.
  { unfold ls. repeat (simpl; rewrite <-?app_assoc). done. }
  destruct (report_taken _ _ _ _ _ _ l4 c ltac:(rewrite <-Hls; exact Hr) Hq) as (j&Hj).
  apply elem_of_list_split in Hj as (l5&l6&Hl4).
  assert (ls = l1 ++ LCall i w :: l2 ++ LRet i w ROk :: (l3 ++ LReport ei :: l5) ++ LTake j ei :: l6) as Hls2.
  { unfold ls. rewrite Hl4. repeat (simpl; rewrite <-?app_assoc). done. }
  rewrite Hls2 in Hr, Hst, Hrm.
  destruct (C89_watched _ _ _ _ _ _ _ _ _ _ _ _ d x Hr) as (b&Hb); try done.
  - left. by rewrite Hq1, lookup_empty.
  - exists j, b. rewrite Hl4. apply elem_of_app. right. by right.
Qed.
(** *** Nothing else is delivered *)
(** A channel that is offered an event has, at a moment after the goroutine was started
    and before its first send, Watch calls in effect, none of them before a Stop of the
    channel, for one path: that of the event, its directory, or, with a recursive one among
    them, a directory above; and they ask for everything the event consists of. *)
Theorem C89_only ls c j n ei b d x :
  nrun ls c → LOffer j n ei b ∈ ls → reported P sepc ei d x →
  ∃ la lb q, ls = la ++ lb ∧ LTake j ei ∈ la ∧ (∀ m, offered_by j m la = []) ∧
    (q = d ++ [x] ∨ q = d ∨ q `prefix_of` d ∧ ∃ e, standing la n q true e) ∧
    ∀ y, has (ei_event ei) y → ∃ isrec e, standing la n q isrec e ∧ has (e .| rec_bit P isrec) y.
Proof.
  intros Hr Ho Hrep. destruct (sent_some _ _ _ _ _ _ _ _ _ _ Hr Ho) as (la&lb&c0&E&->&Hr0&Ht&Hno&HE&Hpos).
  destruct (nrun_history _ _ Hr0) as (tr&Hh&Hx).
  destruct (C17_exact_delivery_always P HP HW sepc tr _ Hx) as (g&Hg&Hdel).
  assert (∀ q y, has (g q n) y → ∃ isrec e, standing la n q isrec e ∧ has (e .| rec_bit P isrec) y) as Hst.
  { intros q y Hy. eapply (registered_standing P (nregs P) (dirs_nonrec sepc)); [apply nregs_nil| | |done|done|done].
    - intros tr' o r g' (g0&?&?)%nregs_snoc. exists g0. split; [done|]. by eapply reg_after_upper.
    - intros ei' t (p&_&->). right. eauto. }
  assert (0 < deliveries P g n (ei_event ei) d x)%nat as Hd by (by rewrite <-(Hdel E ei d x n)).
  apply deliveries_iff in Hd as [Hi|[Hi|(a&Ha&Hne&Hi)]].
  - exists la, lb, (d ++ [x]). split_and!; try done; [by left|]. intros y Hy. by apply Hst, Hi.
  - exists la, lb, d. split_and!; try done; [right; by left|]. intros y Hy. by apply Hst, Hi.
  - exists la, lb, a. split_and!; try done.
    + right. right. split; [done|]. destruct (pok_single _ HP (recursive P)) as [k Hk]; [unfold consts; set_solver|].
      assert (has (recursive P) k) as Hhk by (rewrite Hk; apply N.pow2_bits_true).
      destruct (Hst a k) as (isrec&e&Hs&He); [apply Hi, has_lor; by right|].
      destruct isrec; [by exists e|]. exfalso. simpl in He. rewrite N.lor_0_r in He.
      destruct Hs as (u&i'&r&v&->&_). destruct (crit_ok _ _ _ _ _ _ i' (NWatch a false n e) r Hr0) as [_ (_&_&Hu)].
      { apply elem_of_app. right. by left. }
      unfold user_ev, internal in Hu. revert He Hhk Hu. clear. intros He Hr Hd. unfold disj_ev in Hd.
      apply (Hd k); [done|]. apply has_lor. by left.
    + intros y Hy. apply Hst, Hi, has_lor. by left.
Qed.
End nonrec.

(** ** The tree with recursive watches *)
Section recursive.
Context (P : platform) (HP : platform_ok P) (HR : windows P = true → P = readdcw).
Context (sepc : ascii) (w : bool) (isvol : str → Prop).
Notation rrun := (run (rec_ops sepc w) (renv P sepc w isvol) (rop_ok P sepc w isvol) (rreport_ok P sepc w isvol)).
Notation hist := (history dirs_rec).
Lemma rec_dirs tr s E ei : rexec P sepc w isvol tr s → renv P sepc w isvol E → rreport_ok P sepc w isvol ei →
  st_panic (t_int (rec_ops sepc w) E s ei) = false →
  ∃ t, dirs_rec ei t ∧ rexec P sepc w isvol (tr ++ t) (t_int (rec_ops sepc w) E s ei).
Proof. intros Hx HE _ _. exists []. split; [done|]. by rewrite app_nil_r. Qed.
Lemma rrun_history ls c : rrun ls c → ∃ tr, hist ls tr ∧ rexec P sepc w isvol tr (c_st c).
Proof. apply (run_history _ _ _ _ _ _ P (rec_spec P HP HR sepc w isvol) rec_dirs). Qed.
Lemma calls_ok_hist ls tr : hist ls tr → calls_ok ls → all_ok tr.
Proof.
  intros Hh Hp. eapply Forall_impl; [by apply history_from|]. intros [o r] [(k&Hk)|(ei&t&_&->&Hx)].
  - by eapply Hp.
  - by apply elem_of_nil in Hx.
Qed.
Lemma calls_ok_app la lb : calls_ok (la ++ lb) → calls_ok la.
Proof. intros H i o r Hin. eapply H, elem_of_app. by left. Qed.
(** Exact delivery; native Windows reports of modifications aside. *)
Theorem C89_exact_recursive_partial ls c j ei d x :
  rrun ls c → calls_ok ls → LTake j ei ∈ ls → sends_made c j → rreported P sepc w isvol ei d x → unmodified P ei →
  ∃ la lb tr, ls = la ++ lb ∧ LTake j ei ∈ la ∧ (∀ n, offered_by j n la = []) ∧ hist la tr ∧
    ∀ n, offered_by j n ls = replicate (deliveries P (asked P tr) n (needs P ei) d x) ei.
Proof.
  intros Hr Hp Hin Hs Hrep Hm. destruct (sent_all _ _ _ _ _ _ _ _ Hr Hin Hs) as (la&lb&c0&E&->&Hr0&Ht&Hno&HE&Hoff).
  destruct (rrun_history _ _ Hr0) as (tr&Hh&Hx). exists la, lb, tr. split_and!; try done.
  intros n. rewrite Hoff. f_equal.
  eapply (C30_exact_delivery P HP HR sepc w isvol tr (c_st c0) E ei d x n); try done.
  eapply calls_ok_hist; [done|by eapply calls_ok_app].
Qed.
(** Of a native Windows report of a modification there is one offer for every registration, on the
    path itself or on any directory above it, that asks for modifications. *)
Theorem C89_exact_modified ls c j ei d x :
  rrun ls c → calls_ok ls → LTake j ei ∈ ls → sends_made c j → rreported P sepc w isvol ei d x →
  windows P = true → needs P ei = fileNotifyChangeModified →
  ∃ la lb tr, ls = la ++ lb ∧ LTake j ei ∈ la ∧ (∀ n, offered_by j n la = []) ∧ hist la tr ∧
    ∀ n, offered_by j n ls =
      replicate (foldr Nat.add 0%nat ((λ k, asks_modified (asked P tr) n (take k (d ++ [x]))) <$> seq 0 (length d + 2))) ei.
Proof.
  intros Hr Hp Hin Hs Hrep Hw Hm. destruct (sent_all _ _ _ _ _ _ _ _ Hr Hin Hs) as (la&lb&c0&E&->&Hr0&Ht&Hno&HE&Hoff).
  destruct (rrun_history _ _ Hr0) as (tr&Hh&Hx). exists la, lb, tr. split_and!; try done.
  intros n. rewrite Hoff. f_equal.
  eapply (C30_windows_modified P HP HR sepc w isvol tr (c_st c0) E ei d x n); try done.
  eapply calls_ok_hist; [done|by eapply calls_ok_app].
Qed.
Lemma rregs_kept t1 t2 p isrec n e g x :
  rregs P (t1 ++ (NWatch p isrec n e, ROk) :: t2) g → x ≠ 0 → disj_ev x (recursive P) → incl_ev x e →
  (∀ r, (NStop n, r) ∉ t2) → incl_ev (e .| rec_bit P isrec) (g p n).
Proof.
  intros Hg Hx0 Hx Hxe. revert g Hg. induction t2 as [|[o r] t2 IH] using rev_ind; intros g Hg Hs.
  - apply rregs_snoc in Hg as (g0&_&[_ Hg]). rewrite Hg. clear. bits.
  - rewrite app_comm_cons, app_assoc in Hg. apply rregs_snoc in Hg as (g0&Hg0&Hra).
    assert (incl_ev (e .| rec_bit P isrec) (g0 p n)) as Hi.
    { apply IH; [done|]. intros r' Hin. apply (Hs r'), elem_of_app. by left. }
    destruct o as [q ir m e'|m|ev q]; simpl in Hra; [| |done].
    + destruct Hra as [Hoth Hra]. destruct (decide ((p, n) = (q, m))) as [[= -> ->]|Hne]; [|by rewrite Hoth].
      destruct r; [rewrite Hra; clear - Hi; bits|..].
      all: destruct Hra as [[Hra|Hra] _]; [clear - Hi Hra; bits|]; exfalso; apply Hx0; clear - Hi Hra Hx Hxe; bits.
    + rewrite Hra, decide_False; [done|]. intros ->. apply (Hs r), elem_of_app. right. by left.
Qed.
Theorem C89_watched_recursive_partial l1 i p isrec n e l2 l3 j ei l4 c d x :
  let ls := l1 ++ LCall i (NWatch p isrec n e) :: l2 ++ LRet i (NWatch p isrec n e) ROk :: l3 ++ LTake j ei :: l4 in
  rrun ls c → sends_made c j → rreported P sepc w isvol ei d x → unmodified P ei → concerns p isrec e (needs P ei) d x →
  no_stop_since l1 ls n →
  ∃ b, LOffer j n ei b ∈ l4.
Proof.
  intros ls Hr Hs Hrep Hmod Hco Hst. set (wt := NWatch p isrec n e) in *.
  set (m := l1 ++ LCall i wt :: l2 ++ LRet i wt ROk :: l3).
  assert (ls = m ++ LTake j ei :: l4) as Hls.
  { unfold ls, m. repeat (simpl; rewrite <-?app_assoc). done. }
  destruct (sent_all _ _ _ _ ls c j ei Hr) as (la&lb&c0&E&Hla&Hr0&Ht&Hno&HE&Hoff); [|done|].
  { rewrite Hls. apply elem_of_app. right. by left. }
  destruct (take_prefix (rec_ops sepc w) (renv P sepc w isvol) (rop_ok P sepc w isvol) (rreport_ok P sepc w isvol)
    m j ei l4 la lb c) as (la'&Hla'); [by rewrite <-Hls|by rewrite <-Hls|done|].
  destruct (rrun_history _ _ Hr0) as (tr&Hh&Hx).
  destruct (C30_exact_delivery_always P HP HR sepc w isvol tr _ Hx) as (g&Hg&Hdel).
  assert (∀ l, l ∈ la → l ∈ ls) as Hsub by (intros l Hl; rewrite Hla; apply elem_of_app; by left).
  assert (la = l1 ++ LCall i wt :: l2 ++ LRet i wt ROk :: (l3 ++ LTake j ei :: la')) as Heq.
  { rewrite Hla'. unfold m. repeat (simpl; rewrite <-?app_assoc). done. }
  rewrite Heq in Hh, Hr0.
  destruct (watch_standing _ _ _ _ dirs_rec l1 i p isrec n e ROk l2 _ _ tr Hr0) as (t1&t2&b&->&Hf&Hb&Hbs); [|done|].
  { intros k Hk. apply Hst, Hsub. by rewrite Heq. }
  assert (0 < deliveries P g n (needs P ei) d x)%nat as Hpos.
  { pose proof Hrep as (He&Hint&_). eapply deliveries_concerns; [done|].
    destruct (needs_ok P HR ei He) as [Hn0 _]; [clear - Hint; unfold internal in Hint; bits|].
    eapply (rregs_kept t1 t2 p isrec n e g (needs P ei)); [done|done|by apply needs_norec|by destruct Hco|].
    intros r Hin. eapply Forall_forall in Hf; [|exact Hin]. destruct Hf as [(k&Hk)|(ei'&t&_&->&Hx')]; [by eapply Hb|].
    by apply elem_of_nil in Hx'. }
  specialize (Hoff n). rewrite <-(Hdel E ei d x n) in Hpos by done.
  assert (ei ∈ offered_by j n ls) as Hof.
  { rewrite Hoff. apply elem_of_replicate. split; [done|]. unfold rec_offered in Hpos. simpl. lia. }
  rewrite Hls, offered_by_app in Hof. apply elem_of_app in Hof as [Hof|Hof].
  - exfalso. rewrite Hls in Hr. apply elem_of_list_omap in Hof as (l&Hl&Hl2). destruct l as [| | | | |j' n' ei' b'| |]; try done.
    simpl in Hl2. destruct (decide _) as [[-> ->]|]; [|done]. eapply (take_fresh _ _ _ _ _ _ _ _ _ Hr); [exact Hl|done].
  - apply elem_of_list_omap in Hof as (l&Hl&Hl2). destruct l as [| | | | |j' n' ei' b'| |]; try done.
    simpl in Hl2. destruct (decide _) as [[-> ->]|]; [|done]. injection Hl2 as ->.
    apply elem_of_cons in Hl as [?|Hl]; [done|]. by exists b'.
Qed.
Theorem C89_delivered_recursive_partial l1 i p isrec n e l2 l3 ei l4 c d x :
  let ls := l1 ++ LCall i (NWatch p isrec n e) :: l2 ++ LRet i (NWatch p isrec n e) ROk :: l3 ++ LReport ei :: l4 in
  rrun ls c → quiescent c → rreported P sepc w isvol ei d x → unmodified P ei → concerns p isrec e (needs P ei) d x →
  no_stop_since l1 ls n →
  ∃ j b, LOffer j n ei b ∈ l4.
Proof.
  intros ls Hr (Hq1&_&Hq&_) Hrep Hm Hco Hst. set (wt := NWatch p isrec n e) in *.
  assert (ls = (l1 ++ LCall i wt :: l2 ++ LRet i wt ROk :: l3) ++ LReport ei :: l4) as Hls.
  { unfold ls. repeat (simpl; rewrite <-?app_assoc). done. }
  destruct (report_taken _ _ _ _ _ _ l4 c ltac:(rewrite <-Hls; exact Hr) Hq) as (j&Hj).
  apply elem_of_list_split in Hj as (l5&l6&Hl4).
  assert (ls = l1 ++ LCall i wt :: l2 ++ LRet i wt ROk :: (l3 ++ LReport ei :: l5) ++ LTake j ei :: l6) as Hls2.
  { unfold ls. rewrite Hl4. repeat (simpl; rewrite <-?app_assoc). done. }
  rewrite Hls2 in Hr, Hst.
  destruct (C89_watched_recursive_partial _ _ _ _ _ _ _ _ _ _ _ _ d x Hr) as (b&Hb); try done.
  - left. by rewrite Hq1, lookup_empty.
  - exists j, b. rewrite Hl4. apply elem_of_app. right. by right.
Qed.
Theorem C89_only_recursive_partial ls c j n ei b d x :
  rrun ls c → LOffer j n ei b ∈ ls → rreported P sepc w isvol ei d x → unmodified P ei →
  ∃ la lb q, ls = la ++ lb ∧ LTake j ei ∈ la ∧ (∀ m, offered_by j m la = []) ∧
    (q = d ++ [x] ∨ q = d ∨ q `prefix_of` d ∧ ∃ e, standing la n q true e) ∧
    ∀ y, has (needs P ei) y → ∃ isrec e, standing la n q isrec e ∧ has (e .| rec_bit P isrec) y.
Proof.
  intros Hr Ho Hrep Hm. destruct (sent_some _ _ _ _ _ _ _ _ _ _ Hr Ho) as (la&lb&c0&E&->&Hr0&Ht&Hno&HE&Hpos).
  destruct (rrun_history _ _ Hr0) as (tr&Hh&Hx).
  destruct (C30_exact_delivery_always P HP HR sepc w isvol tr _ Hx) as (g&Hg&Hdel).
  assert (∀ q y, has (g q n) y → ∃ isrec e, standing la n q isrec e ∧ has (e .| rec_bit P isrec) y) as Hst.
  { intros q y Hy. eapply (registered_standing P (rregs P) dirs_rec); [apply rregs_nil| | |done|done|done].
    - intros tr' o r g' (g0&?&?)%rregs_snoc. exists g0. split; [done|]. by eapply rreg_after_upper.
    - intros ei' t ->. by left. }
  assert (0 < deliveries P g n (needs P ei) d x)%nat as Hd by (by rewrite <-(Hdel E ei d x n)).
  apply deliveries_iff in Hd as [Hi|[Hi|(a&Ha&Hne&Hi)]].
  - exists la, lb, (d ++ [x]). split_and!; try done; [by left|]. intros y Hy. by apply Hst, Hi.
  - exists la, lb, d. split_and!; try done; [right; by left|]. intros y Hy. by apply Hst, Hi.
  - exists la, lb, a. split_and!; try done.
    + right. right. split; [done|]. destruct (pok_single _ HP (recursive P)) as [k Hk]; [unfold consts; set_solver|].
      assert (has (recursive P) k) as Hhk by (rewrite Hk; apply N.pow2_bits_true).
      destruct (Hst a k) as (isrec&e&Hs&He); [apply Hi, has_lor; by right|].
      destruct isrec; [by exists e|]. exfalso. simpl in He. rewrite N.lor_0_r in He.
      destruct Hs as (u&i'&r&v&->&_). destruct (crit_ok _ _ _ _ _ _ i' (NWatch a false n e) r Hr0) as (_&_&Hu).
      { apply elem_of_app. right. by left. }
      unfold user_ev, internal in Hu. revert He Hhk Hu. clear. intros He Hr Hd. unfold disj_ev in Hd.
      apply (Hd k); [done|]. apply has_lor. by left.
    + intros y Hy. apply Hst, Hi, has_lor. by left.
Qed.
End recursive.

(** ** Instances, on Linux *)
Notation crun := (nrun linux slash).
Local Ltac noreaders := let H := fresh in intros ? ? ? ? H; simpl in H;
  repeat first [apply lookup_insert_Some in H as [[? ?]|[? H]]; [congruence|]|apply lookup_delete_Some in H as [? H]|by rewrite lookup_empty in H].
Local Ltac nothr := let k := fresh in let t := fresh in let H := fresh in
  apply map_empty; intros k; apply eq_None_not_Some; intros [t H]; simpl in H;
  repeat first [apply lookup_insert_Some in H as [[<- _]|[? H]]; [congruence|]|apply lookup_delete_Some in H as [? H]|by rewrite lookup_empty in H].
Definition ss2 : st := (nstep slash E0 sw (NStop 2)).1.
Lemma stop_ss2 : nstep slash E0 sw (NStop 2) = (ss2, ROk).
Proof. assert ((nstep slash E0 sw (NStop 2)).2 = ROk) as H by (by vm_compute). unfold ss2. by rewrite <-(pair_snd _ _ H). Qed.
Lemma ss_e1 : nr_dispatch E0 (st_tree ss) e1 = ([], false).
Proof. by vm_compute. Qed.
Lemma e1_reported : reported linux slash e1 (pth "a/b") (b "f").
Proof.
  split_and!; [by vm_compute|apply land_zero_disj; by vm_compute| |apply (bool_decide_unpack _); by vm_compute|by vm_compute].
  split_and!; [done|apply (bool_decide_unpack _); by vm_compute|apply (bool_decide_unpack _); by vm_compute].
Qed.
Lemma e1_concerns : concerns (pth "a") true (Create linux .| Write linux) (ei_event e1) (pth "a/b") (b "f").
Proof. split; [bits|]. right. right. split; [done|]. by exists (pth "b"). Qed.
Opaque sw ss ss2.
(** The hypotheses of C89_delivered, C89_watched and C89_exact: another goroutine stops
    another channel while the event is dispatched. *)
Definition ex_l4 : list lab := [LCall 1 (NStop 2); LTake 2 e1; LTau; LOffer 2 1 e1 true; LTau; LTau; LTau;
  LCrit 1 (NStop 2) ROk; LTau; LRet 1 (NStop 2) ROk].
Example C89_ex : ∃ c,
  let ls := [] ++ LCall 0 wt :: [LTau; LTau; LCrit 0 wt ROk; LTau] ++ LRet 0 wt ROk :: [] ++ LReport e1 :: ex_l4 in
  crun ls c ∧ quiescent c ∧ reported linux slash e1 (pth "a/b") (b "f") ∧
  concerns (pth "a") true (Create linux .| Write linux) (ei_event e1) (pth "a/b") (b "f") ∧
  no_stop_since [] ls 1 ∧ not_removed linux slash ls (pth "a") ∧ plain_ok ls.
Proof.
  destruct run_wt as (ls&Hr&->).
  eapply run_report in Hr; [|exact e1_ok|simpl; unfold buffer; lia].
  eapply run_step in Hr; [|eapply (s_call _ _ _ _ _ (NStop 2)); exact (stop_ok 2)].
  eapply run_take in Hr; [|reflexivity].
  eapply (run_deliver E0 _ _ 2 e1 1 false E0_env) in Hr; [|reflexivity|reflexivity|exact sw_e1].
  eapply run_step in Hr; [|eapply (s_want _ _ _ _ _ 1%nat); reflexivity].
  eapply run_step in Hr; [|eapply (s_lock _ _ _ _ _ 1%nat); [reflexivity|noreaders]].
  eapply run_step in Hr; [|eapply (s_crit _ _ _ _ _ 1%nat _ E0 ss2 ROk); [reflexivity|exact E0_env|exact stop_ss2|]].
  2: { eapply (C28_no_panic linux linux_ok slash [(wt, ROk); (NStop 2, ROk)]).
    eapply (nexec_step _ _ [(wt, ROk)] sw E0); [|exact E0_env|done|exact stop_ss2].
    eapply (nexec_step _ _ [] init_st E0); [constructor|exact E0_env|apply wt_ok|exact wt_sw]. }
  eapply run_step in Hr; [|eapply (s_unlock _ _ _ _ _ 1%nat); reflexivity].
  eapply run_step in Hr; [|eapply (s_ret _ _ _ _ _ 1%nat); reflexivity].
  eexists. split_and!; [exact Hr| |exact e1_reported|exact e1_concerns| | |].
  - split_and!; [nothr|reflexivity..].
  - intros k Hk. exfalso. unfold ex_l4 in Hk. simpl in Hk. repeat (apply elem_of_cons in Hk as [Hk|Hk]; [discriminate Hk|]). by apply elem_of_nil in Hk.
  - intros ei q Hk. exfalso. unfold ex_l4 in Hk. simpl in Hk. repeat (apply elem_of_cons in Hk as [Hk|Hk]; [discriminate Hk|]). by apply elem_of_nil in Hk.
  - intros i p n e r Hk. unfold ex_l4, wt in Hk. simpl in Hk.
    repeat (apply elem_of_cons in Hk as [Hk|Hk]; [discriminate Hk|]). by apply elem_of_nil in Hk.
Qed.
(** An event reported before Stop is called, while the channel is watched, may never be
    offered to it: the goroutine of the event runs after Stop. *)
Theorem C89_late_refuted : ∃ l1 l2 l3 c,
  crun (l1 ++ LRet 0 wt ROk :: l2 ++ LReport e1 :: LCall 1 (NStop 1) :: l3) c ∧ quiescent c ∧
  offers 1 (l1 ++ LRet 0 wt ROk :: l2 ++ LReport e1 :: LCall 1 (NStop 1) :: l3) = [] ∧
  concerns (pth "a") true (Create linux .| Write linux) (ei_event e1) (pth "a/b") (b "f").
Proof.
  destruct run_wt as (ls&Hr&->).
  eapply run_report in Hr; [|exact e1_ok|simpl; unfold buffer; lia].
  eapply (run_whole_call E0 _ _ (NStop 1) ss ROk E0_env) in Hr; [|reflexivity|noreaders|done|exact stop_ss].
  eapply run_take in Hr; [|reflexivity].
  eapply run_step in Hr; [|eapply (s_rlock _ _ _ _ _ 2%nat e1 E0); [reflexivity|done|exact E0_env|exact ss_e1]].
  eapply run_step in Hr; [|eapply (s_runlock _ _ _ _ _ 2%nat); reflexivity].
  exists [LCall 0 wt; LTau; LTau; LCrit 0 wt ROk; LTau], [],
    [LTau; LTau; LCrit 1 (NStop 1) ROk; LTau; LRet 1 (NStop 1) ROk; LTake 2 e1; LTau; LTau].
  eexists. split_and!; [exact Hr|split_and!; [nothr|reflexivity..]|reflexivity|exact e1_concerns].
Qed.
Transparent sw ss ss2.
(** On macOS: a Watch, a report, its dispatch. *)
Lemma ms1_me : t_disp (rec_ops slash false) L (st_tree ms1) me = ([KUser 1], false).
Proof. by vm_compute. Qed.
Opaque ms1.
Example C89_recursive_ex : ∃ c,
  let ls := [] ++ LCall 0 mw :: [LTau; LTau; LCrit 0 mw ROk; LTau] ++ LRet 0 mw ROk :: [] ++
    LReport me :: [LTake 1 me; LTau; LOffer 1 1 me true; LTau] in
  run (rec_ops slash false) (renv fsevents slash false novol) (rop_ok fsevents slash false novol)
    (rreport_ok fsevents slash false novol) ls c ∧ quiescent c ∧
  rreported fsevents slash false novol me (pth "a/b") (b "f") ∧ unmodified fsevents me ∧
  concerns (pth "a") true (Create fsevents .| Write fsevents) (needs fsevents me) (pth "a/b") (b "f") ∧
  no_stop_since [] ls 1 ∧ calls_ok ls.
Proof.
  destruct ms_panic as (P1&_).
  pose proof (TreeConcFacts.run_whole_call (rec_ops slash false) _ _ (rreport_ok fsevents slash false novol) L [] cfg0 mw ms1 ROk L_env ltac:(constructor) eq_refl ltac:(noreaders) mw_ok ms1_eq P1) as Hr.
  eapply run_step in Hr; [|eapply s_report; [exact me_ok|simpl; unfold buffer; lia]].
  eapply run_step in Hr; [|eapply s_take; reflexivity].
  eapply (TreeConcFacts.run_deliver _ _ _ _ L _ _ 1%nat me 1%positive false L_env) in Hr; [|reflexivity|reflexivity|exact ms1_me].
  eexists. split_and!; [exact Hr| |apply (rreportedb_ok fsevents slash false); by vm_compute|done| | |].
  - split_and!; [nothr|reflexivity..].
  - split; [|right; right; split; [done|by exists (pth "b")]].
    assert (needs fsevents me = Write fsevents) as -> by by vm_compute. bits.
  - intros k Hk. exfalso. simpl in Hk. repeat (apply elem_of_cons in Hk as [Hk|Hk]; [discriminate Hk|]). by apply elem_of_nil in Hk.
  - intros i o r Hk. simpl in Hk.
    repeat (apply elem_of_cons in Hk as [Hk|Hk]; [first [discriminate Hk|by injection Hk]|]). by apply elem_of_nil in Hk.
Qed.
Transparent ms1.
Print Assumptions C89_exact.
Print Assumptions C89_exact_always.
Print Assumptions C89_watched.
Print Assumptions C89_delivered.
Print Assumptions C89_only.
Print Assumptions C89_exact_recursive_partial.
Print Assumptions C89_exact_modified.
Print Assumptions C89_watched_recursive_partial.
Print Assumptions C89_delivered_recursive_partial.
Print Assumptions C89_only_recursive_partial.
Print Assumptions C89_late_refuted.
Print Assumptions C89_ex.
Print Assumptions C89_recursive_ex.
