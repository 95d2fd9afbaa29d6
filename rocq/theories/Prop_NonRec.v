(** * Property theorems C03, C08, C10, C17-C29: the tree used where the OS has no
    recursive watches (Linux, BSD, Solaris). *)
From Verif Require Import Base Event Watchpoint WatchpointFacts Paths PathsFacts Loop LoopFacts
  Node NodeFacts SpecTree WalkFacts RootFacts NonRec NonRecWp SpecNonRec SpecNonRecOS SpecOS
  NonRecFacts NonRecOps NonRecReg NonRecStep NonRecDisp NonRecOS NonRecStop NonRecCov NonRecRun Prop_Basics.
Local Open Scope N_scope.

Section nonrec_props.
Context (P : platform) (HP : platform_ok P) (HW : windows P = false) (sepc : ascii).
Notation render := (render sepc).
Notation nenv := (nenv P sepc).
Notation nop_ok := (nop_ok P sepc).
Notation nstep := (nstep sepc).
Notation nexec := (nexec P sepc).
Notation gpath := (gpath sepc).
Notation upath := (upath sepc).

(** An event reported by the OS for entry [c] of directory [d]: it carries at least
    one event and is not marked internal. *)
Definition reported (ei : event_info) (d : path) (c : str) : Prop :=
  ei_event ei ≠ 0 ∧ disj_ev (ei_event ei) (omit P) ∧ upath d ∧ comp_ok sepc c ∧ ei_path ei = render (d ++ [c]).

(** ** Registrations along a history *)
Lemma nexec_regs tr s : nexec tr s → nregs P tr (ureg s).
Proof.
  induction 1 as [|tr s E o s' r Hx IH HE Ho Hs].
  - apply nregs_init. intros p n. unfold ureg, wp_at. destruct (st_tree init_st !! p) as [nd|] eqn:Eq; [|done].
    simpl in Eq. by apply lookup_singleton_Some in Eq as [<- <-].
  - eapply nregs_step; [exact IH|]. destruct (nexec_inv P HP sepc _ _ Hx) as [Ht _].
    by destruct (nstep_spec P HP sepc E s o s' r HE Ho Ht Hs) as (_&_&?).
Qed.
Lemma nregs_asked tr g : no_failure tr → nregs P tr g → ∀ p n, g p n = asked P tr p n.
Proof.
  intros Hnf Hg. revert Hnf. induction Hg as [g H0|tr g o r g' Hg IH Hra]; intros Hnf p n; [by rewrite H0|].
  apply Forall_app in Hnf as [Hnf Ho]. inversion_clear Ho as [|? ? Ho' _]. specialize (IH Hnf).
  unfold asked. rewrite foldl_app. cbn [foldl ask]. fold (asked P tr).
  destruct o as [q isrec m e|m|ev q]; simpl in Hra.
  - destruct Hra as [Hoth Hown]. destruct (decide (q = p ∧ m = n)) as [[-> ->]|Hne].
    + destruct r; [by rewrite Hown, IH|..]; (destruct isrec; [by rewrite Hown, IH|by simpl in Ho']).
    + assert (g' p n = asked P tr p n) as -> by (rewrite Hoth; [by apply IH|naive_solver]). by destruct r.
  - rewrite Hra. destruct (decide (m = n)) as [->|Hne].
    + by rewrite decide_True.
    + rewrite decide_False by done. by apply IH.
  - rewrite Hra. destruct (decide (ev = Remove P ∧ q `prefix_of` p)); [done|apply IH].
Qed.
Lemma ureg_asked tr s : nexec tr s → no_failure tr → ∀ p n, ureg s p n = asked P tr p n.
Proof. intros Hx Hnf. apply nregs_asked; [done|]. by apply nexec_regs. Qed.
Lemma prefix_take {A} (l : list A) k : take k l `prefix_of` l.
Proof. exists (drop k l). by rewrite take_drop. Qed.
Lemma gets_ext g g' n ev q : g q n = g' q n → gets g n ev q = gets g' n ev q.
Proof. unfold gets. by intros ->. Qed.
Lemma deliveries_ext g g' n ev d c :
  (∀ q, q `prefix_of` d ++ [c] → g q n = g' q n) → deliveries P g n ev d c = deliveries P g' n ev d c.
Proof.
  intros H. unfold deliveries. f_equal; [f_equal|].
  - f_equal. apply list_fmap_ext. intros k x Hk. apply gets_ext, H.
    etrans; [apply prefix_take|by apply prefix_app_r].
  - apply gets_ext, H. by apply prefix_app_r.
  - by apply gets_ext, H.
Qed.
Lemma gets_mono g g' n ev q : incl_ev (g q n) (g' q n) → (gets g n ev q ≤ gets g' n ev q)%nat.
Proof.
  intros H. unfold gets. destruct (decide (ev .& g q n = ev)) as [Hg|]; [|lia]. rewrite decide_True; [done|].
  rewrite <-Hg. clear - H. bits.
Qed.
Lemma sum_mono (f f' : nat → nat) l :
  (∀ k, f k ≤ f' k)%nat → (foldr Nat.add 0 (f <$> l) ≤ foldr Nat.add 0 (f' <$> l))%nat.
Proof. intros H. induction l as [|k l IH]; [done|]. rewrite !fmap_cons. simpl. specialize (H k). lia. Qed.
Lemma deliveries_mono g g' n ev d c :
  (∀ q, incl_ev (g q n) (g' q n)) → (deliveries P g n ev d c ≤ deliveries P g' n ev d c)%nat.
Proof.
  intros H. unfold deliveries. repeat apply Nat.add_le_mono; try by apply gets_mono.
  apply sum_mono. intros k. by apply gets_mono.
Qed.
Lemma gets_0 g n ev q : ev ≠ 0 → g q n = 0 → gets g n ev q = 0%nat.
Proof. intros Hev Hg. unfold gets. rewrite Hg, N.land_0_r. by rewrite decide_False. Qed.
Lemma sum_0 (f : nat → nat) l : (∀ k, f k = 0%nat) → foldr Nat.add 0%nat (f <$> l) = 0%nat.
Proof. intros H. induction l as [|k l IH]; [done|]. rewrite fmap_cons. simpl. by rewrite H, IH. Qed.
Lemma deliveries_0 g n ev d c :
  ev ≠ 0 → (∀ q, q `prefix_of` d ++ [c] → g q n = 0) → deliveries P g n ev d c = 0%nat.
Proof.
  intros Hev H. unfold deliveries. rewrite !gets_0; [|done|by apply H|done|apply H; by apply prefix_app_r].
  rewrite sum_0; [done|]. intros k. apply gets_0.
  - intros Hz. apply Hev. clear - Hz. bits.
  - apply H. etrans; [apply prefix_take|by apply prefix_app_r].
Qed.

(** ** C17: exact delivery *)
(** However the OS, the scheduler and map iteration behaved: when the plain Watch
    calls succeeded, each channel is offered an event exactly as often as its
    registrations demand, and nobody else is. *)
Theorem C17_exact_delivery tr s E ei d c n :
  nexec tr s → no_failure tr → nenv E → reported ei d c →
  offered E s ei (KUser n) = deliveries P (asked P tr) n (ei_event ei) d c.
Proof.
  intros Hx Hnf HE (Hev&Hom&Hd&Hc&Hp). destruct (nexec_inv P HP sepc _ _ Hx) as [Ht _].
  destruct (dispatch_spec P HP HW sepc E s ei d c HE Ht Hev Hom Hd Hc Hp) as [-> _].
  apply deliveries_ext. intros q _. by apply ureg_asked.
Qed.
(** In particular an event is offered at all iff some registration demands it. *)
Theorem C17_offered_iff tr s E ei d c n :
  nexec tr s → no_failure tr → nenv E → reported ei d c →
  (0 < offered E s ei (KUser n))%nat ↔
    incl_ev (ei_event ei) (asked P tr (d ++ [c]) n) ∨ incl_ev (ei_event ei) (asked P tr d n) ∨
    ∃ a, a `prefix_of` d ∧ a ≠ d ∧ incl_ev (ei_event ei .| recursive P) (asked P tr a n).
Proof.
  intros Hx Hnf HE Hrep. rewrite (C17_exact_delivery tr s E ei d c n) by done.
  assert (∀ ev q, (0 < gets (asked P tr) n ev q)%nat ↔ incl_ev ev (asked P tr q n)) as Hg.
  { intros ev q. unfold gets. destruct (decide (ev .& asked P tr q n = ev)) as [Hz|Hz]; split; try lia.
    - intros _. rewrite <-Hz. clear. bits.
    - intros H. destruct Hz. clear - H. bits. }
  rewrite <-!Hg. unfold deliveries.
  assert ((0 < foldr Nat.add 0 ((λ k, gets (asked P tr) n (ei_event ei .| recursive P) (take k d)) <$> seq 0 (length d)))%nat ↔
    ∃ a, a `prefix_of` d ∧ a ≠ d ∧ incl_ev (ei_event ei .| recursive P) (asked P tr a n)) as <-; [|lia].
  assert (∀ (f : nat → nat) l, (0 < foldr Nat.add 0 (f <$> l))%nat ↔ ∃ k, k ∈ l ∧ (0 < f k)%nat) as Hs.
  { intros f l. induction l as [|k l IH]; [split; [simpl; lia|set_solver]|]. rewrite fmap_cons. simpl. split.
    - intros H. destruct (f k) eqn:Ek; [apply IH in H as (k'&?&?); exists k'; set_solver|exists k; set_solver by lia].
    - intros (k'&[->|Hk]%elem_of_cons&Hf); [lia|]. assert (0 < foldr Nat.add 0 (f <$> l))%nat by (apply IH; eauto). lia. }
  rewrite Hs. split.
  - intros (k&[_ Hk]%elem_of_seq&Hf%Hg). exists (take k d). split_and!; [apply prefix_take| |done].
    intros Heq. apply (f_equal length) in Heq. rewrite take_length in Heq. lia.
  - intros (a&[r ->]&Hne&Hi). exists (length a). split.
    + apply elem_of_seq. rewrite app_length. destruct r; [by rewrite app_nil_r in Hne|simpl; lia].
    + rewrite take_app. by apply Hg.
Qed.
(** With failing Watch calls too, delivery is exact for some registrations allowed by
    the history. *)
Theorem C17_exact_delivery_always tr s :
  nexec tr s → ∃ g, nregs P tr g ∧
    ∀ E ei d c n, nenv E → reported ei d c →
      offered E s ei (KUser n) = deliveries P g n (ei_event ei) d c.
Proof.
  intros Hx. exists (ureg s). split; [by apply nexec_regs|]. intros E ei d c n HE (Hev&Hom&Hd&Hc&Hp).
  destruct (nexec_inv P HP sepc _ _ Hx) as [Ht _].
  by destruct (dispatch_spec P HP HW sepc E s ei d c HE Ht Hev Hom Hd Hc Hp) as [-> _].
Qed.

(** ** C03: Watch only expands *)
(** A Watch call, successful or not, takes no event away from anyone. *)
Theorem C03_watch_expands tr s E p isrec n e s' r E' ei d c m :
  nexec tr s → nenv E → nop_ok (NWatch p isrec n e) → nstep E s (NWatch p isrec n e) = (s', r) →
  nenv E' → reported ei d c →
  (offered E' s ei (KUser m) ≤ offered E' s' ei (KUser m))%nat.
Proof.
  intros Hx HE Ho Hs HE' (Hev&Hom&Hd&Hc&Hp). destruct (nexec_inv P HP sepc _ _ Hx) as [Ht _].
  destruct (nstep_spec P HP sepc E s _ s' r HE Ho Ht Hs) as (Ht'&_&Hoth&Hown).
  destruct (dispatch_spec P HP HW sepc E' s ei d c HE' Ht Hev Hom Hd Hc Hp) as [-> _].
  destruct (dispatch_spec P HP HW sepc E' s' ei d c HE' Ht' Hev Hom Hd Hc Hp) as [-> _].
  apply deliveries_mono. intros q. destruct (decide ((q, m) = (p, n))) as [[= -> ->]|Hne].
  - destruct r, isrec; try (rewrite Hown; clear; bits); by destruct Hown.
  - rewrite Hoth by done. by intros i.
Qed.
(** What a channel has asked for on a path is the union of its successful Watch
    calls since it was last stopped (and the path last removed). *)
Theorem C03_accumulates tr p n i :
  has (asked P tr p n) i ↔
  ∃ tr1 isrec e tr2, tr = tr1 ++ (NWatch p isrec n e, ROk) :: tr2 ∧
    (has e i ∨ isrec = true ∧ has (recursive P) i) ∧
    (∀ r, (NStop n, r) ∉ tr2) ∧ (∀ q r, (NEvent (Remove P) q, r) ∈ tr2 → ¬ q `prefix_of` p).
Proof.
  induction tr as [|[o r] tr IH] using rev_ind.
  { unfold asked. simpl. split; [intros H; by apply has_0 in H|]. by intros ([|]&?&?&?&[=]&_). }
  unfold asked. rewrite foldl_app. cbn [foldl]. fold (asked P tr).
  assert (∀ (keep : Prop),
    (has (asked P tr p n) i ∧ keep) ↔
    ∃ tr1 isrec e tr2, tr = tr1 ++ (NWatch p isrec n e, ROk) :: tr2 ∧
    (has e i ∨ isrec = true ∧ has (recursive P) i) ∧
    (∀ r, (NStop n, r) ∉ tr2) ∧ (∀ q r, (NEvent (Remove P) q, r) ∈ tr2 → ¬ q `prefix_of` p) ∧ keep) as IH'.
  { intros keep. rewrite IH. naive_solver. }
  assert ((∃ tr1 isrec e tr2, tr ++ [(o, r)] = tr1 ++ (NWatch p isrec n e, ROk) :: tr2 ∧
    (has e i ∨ isrec = true ∧ has (recursive P) i) ∧
    (∀ r, (NStop n, r) ∉ tr2) ∧ (∀ q r, (NEvent (Remove P) q, r) ∈ tr2 → ¬ q `prefix_of` p)) ↔
    (∃ isrec e, o = NWatch p isrec n e ∧ r = ROk ∧ (has e i ∨ isrec = true ∧ has (recursive P) i)) ∨
    (has (asked P tr p n) i ∧ o ≠ NStop n ∧ ∀ q, o = NEvent (Remove P) q → ¬ q `prefix_of` p)) as ->.
  { rewrite (IH' (o ≠ NStop n ∧ ∀ q, o = NEvent (Remove P) q → ¬ q `prefix_of` p)). split.
    - intros (tr1&isrec&e&tr2&Heq&Hh&H1&H2). apply app_split_last' in Heq as [(->&->&[= <- <-])|(b'&->&->)].
      + left. by exists isrec, e.
      + right. exists tr1, isrec, e, b'. split_and!; [done|done| | |intros ->; apply (H1 r); set_solver|].
        * intros r' Hr'. apply (H1 r'). set_solver.
        * intros q r' Hr'. apply (H2 q r'). set_solver.
        * intros q ->. apply (H2 q r). set_solver.
    - intros [(isrec&e&->&->&Hh)|(tr1&isrec&e&tr2&->&Hh&H1&H2&H3&H4)].
      + exists tr, isrec, e, []. split_and!; [done|done|set_solver|set_solver].
      + exists tr1, isrec, e, (tr2 ++ [(o, r)]). split_and!; [by rewrite <-app_assoc|done| |].
        * intros r' [Hin|Hin%elem_of_list_singleton]%elem_of_app; [by eapply H1|]. by injection Hin as <- _.
        * intros q r' [Hin|Hin%elem_of_list_singleton]%elem_of_app; [by eapply H2|]. injection Hin as Heq _. by apply H4. }
  destruct o as [q isrec m e|m|ev q]; cbn [ask].
  - assert ((∃ isrec0 e0, NWatch q isrec m e = NWatch p isrec0 n e0 ∧ r = ROk ∧ (has e0 i ∨ isrec0 = true ∧ has (recursive P) i)) ↔
      (q = p ∧ m = n) ∧ r = ROk ∧ (has e i ∨ isrec = true ∧ has (recursive P) i)) as ->.
    { split; [intros (?&?&[= -> -> -> ->]&?); naive_solver|]. intros ([-> ->]&?&?). by exists isrec, e. }
    assert ((has (asked P tr p n) i ∧ NWatch q isrec m e ≠ NStop n ∧ ∀ q0, NWatch q isrec m e = NEvent (Remove P) q0 → ¬ q0 `prefix_of` p)
      ↔ has (asked P tr p n) i) as -> by naive_solver.
    destruct r; [|naive_solver..]. destruct (decide (q = p ∧ m = n)) as [Hd|Hd]; [|naive_solver].
    rewrite !has_lor. unfold rec_bit. destruct isrec; [naive_solver|]. split; [|naive_solver].
    intros [[?|?]|Hz]; [by right|by left; auto|by apply has_0 in Hz].
  - destruct (decide (m = n)) as [->|Hne]; [|naive_solver]. split; [intros Hz; by apply has_0 in Hz|naive_solver].
  - destruct (decide (ev = Remove P ∧ q `prefix_of` p)) as [[-> Hq]|Hne].
    + split; [intros Hz; by apply has_0 in Hz|]. intros [(?&?&?&_)|(_&_&H)]; [done|]. by destruct (H q).
    + split; [|naive_solver]. intros H. right. split_and!; [done|done|]. intros q' [= -> ->]. naive_solver.
Qed.

(** ** C08: internal events never reach users, nor user events the internal channel *)
Theorem C08_never_to_internal tr s E ei d c :
  nexec tr s → nenv E → reported ei d c →
  KRec ∉ (nr_dispatch E (st_tree s) ei).1 ∧ KNil ∉ (nr_dispatch E (st_tree s) ei).1.
Proof.
  intros Hx HE (Hev&Hom&Hd&Hc&Hp). destruct (nexec_inv P HP sepc _ _ Hx) as [Ht _].
  by destruct (dispatch_spec P HP HW sepc E s ei d c HE Ht Hev Hom Hd Hc Hp) as [_ ?].
Qed.

(** ** C10: no events for unrelated paths *)
(** A channel that asked for nothing on the entry and the directories above it is
    not offered the event, whatever it asked for on other paths. *)
Theorem C10_unrelated_silent tr s E ei d c n :
  nexec tr s → nenv E → reported ei d c →
  (∀ q, q `prefix_of` d ++ [c] → ¬ holds P tr q n) → offered E s ei (KUser n) = 0%nat.
Proof.
  intros Hx HE (Hev&Hom&Hd&Hc&Hp) Hno. destruct (nexec_inv P HP sepc _ _ Hx) as [Ht _].
  destruct (dispatch_spec P HP HW sepc E s ei d c HE Ht Hev Hom Hd Hc Hp) as [-> _].
  apply deliveries_0; [done|]. intros q Hq. unfold ureg. apply wget_None.
  destruct (wp_at (st_tree s) q !! KUser n) eqn:Eq; [|done]. exfalso. apply (Hno q Hq).
  eapply nexec_holds; [done|done|]. unfold users. by rewrite Eq.
Qed.

(** ** C18: Stop silences exactly one channel *)
Theorem C18_stopped_silent tr s E ei d c n :
  nexec tr s → ¬ outstanding tr n → nenv E → reported ei d c → offered E s ei (KUser n) = 0%nat.
Proof.
  intros Hx Hno HE (Hev&Hom&Hd&Hc&Hp). destruct (nexec_inv P HP sepc _ _ Hx) as [Ht _].
  destruct (dispatch_spec P HP HW sepc E s ei d c HE Ht Hev Hom Hd Hc Hp) as [-> _].
  apply deliveries_0; [done|]. intros q Hq. unfold ureg. apply wget_None.
  destruct (wp_at (st_tree s) q !! KUser n) eqn:Eq; [|done]. exfalso. apply Hno.
  destruct (nexec_outstanding P HP sepc tr s Hx) as [H1 _]. apply (H1 q). unfold users. by rewrite Eq.
Qed.
Theorem C18_others_unchanged tr s E s' r n m E' ei d c :
  nexec tr s → nenv E → nstep E s (NStop n) = (s', r) → m ≠ n → nenv E' → reported ei d c →
  offered E' s' ei (KUser m) = offered E' s ei (KUser m).
Proof.
  intros Hx HE Hs Hne HE' (Hev&Hom&Hd&Hc&Hp). destruct (nexec_inv P HP sepc _ _ Hx) as [Ht _].
  destruct (nstep_spec P HP sepc E s (NStop n) s' r HE I Ht Hs) as (Ht'&_&Hreg). simpl in Hreg.
  destruct (dispatch_spec P HP HW sepc E' s ei d c HE' Ht Hev Hom Hd Hc Hp) as [-> _].
  destruct (dispatch_spec P HP HW sepc E' s' ei d c HE' Ht' Hev Hom Hd Hc Hp) as [-> _].
  apply deliveries_ext. intros q _. by rewrite Hreg, decide_False.
Qed.

(** ** C19: the OS is programmed with what the tree holds *)
(** In histories where the watcher performs what it is asked (a plain Watch may
    fail): a path is watched for exactly the union of what is held for it, without
    the internal flags, and not at all when that is empty; nothing else is watched. *)
Theorem C19_os_exact tr s p :
  nexec_where P sepc os_good tr s → comps_ok sepc p →
  ∃ x, (∀ i, has x i ↔ ¬ has (internal P) i ∧ ∃ k e, k ≠ KNil ∧ wp_at (st_tree s) p !! k = Some e ∧ has e i) ∧
    os_watches (st_log s) !! render p = if decide (x = 0) then None else Some (x, false).
Proof.
  intros Hx Hp. destruct (nexec_osi P HP sepc tr s Hx) as [Ht Ho].
  exists (total P (wp_at (st_tree s) p)). split.
  - intros i. unfold total. rewrite has_ldiff, has_others. unfold wants. naive_solver.
  - rewrite (oi_tab _ _ _ Ho) by done. unfold opt_ev. destruct (decide (total P (wp_at (st_tree s) p) = 0)) as [->|Hz]; [done|].
    by rewrite (proj2 (N.eqb_neq _ _) Hz).
Qed.
Theorem C19_os_only tr s nm x :
  nexec_where P sepc os_good tr s → os_watches (st_log s) !! nm = Some x →
  ∃ p, comps_ok sepc p ∧ nm = render p ∧ wp_at (st_tree s) p ≠ ∅.
Proof.
  intros Hx Hl. destruct (nexec_osi P HP sepc tr s Hx) as [Ht Ho].
  destruct (oi_only _ _ _ Ho _ _ Hl) as (p&Hp&->). exists p. split_and!; [done|done|].
  rewrite (oi_tab _ _ _ Ho) in Hl by done. intros He. rewrite He in Hl. done.
Qed.
(** Every registration is programmed: whatever a channel asked for on a path, the OS
    watch of that path reports it. *)
Theorem C19_registered tr s p n :
  nexec_where P sepc os_good tr s → no_failure tr → comps_ok sepc p → asked P tr p n ≠ 0 →
  ∃ x, os_watches (st_log s) !! render p = Some (x, false) ∧ incl_ev (asked P tr p n .&^ internal P) x.
Proof.
  intros Hw Hnf Hp Hne. pose proof (nexec_where_nexec _ _ _ _ _ Hw) as Hx.
  destruct (nexec_osi P HP sepc tr s Hw) as [Ht Ho]. rewrite <-(ureg_asked tr s) in * by done.
  set (x := total P (wp_at (st_tree s) p)).
  assert (incl_ev (ureg s p n .&^ internal P) x) as Hi.
  { unfold x, total. intros i. rewrite !has_ldiff. intros [H1 H2]. split; [|done].
    apply has_others_get. exists (KUser n). done. }
  exists x. split; [|done]. rewrite (oi_tab _ _ _ Ho) by done. apply opt_ev_nz. intros Hz. fold x in Hz. rewrite Hz in Hi.
  destruct (wp_at (st_tree s) p !! KUser n) as [e|] eqn:Ek.
  - apply (oi_nz _ _ _ Ho p (KUser n) e); [done|done|]. unfold ureg in Hi. rewrite (wget_Some _ _ _ Ek) in Hi.
    unfold vis. clear - Hi. bits.
  - apply Hne. unfold ureg. by apply wget_None.
Qed.

(** ** C23: the watcher's preconditions are respected *)
(** Watch only on unwatched paths, Rewatch with the set currently programmed and a
    different one, Unwatch only on watched paths; never with internal flags or an
    empty set ([log_legal]). *)
Theorem C23_contract tr s : nexec_where P sepc os_good tr s → log_legal P (st_log s).
Proof. intros Hx. destruct (nexec_osi P HP sepc tr s Hx) as [_ Ho]. by apply Ho. Qed.

(** ** C21: stopping everyone releases everything *)
Theorem C21_tree_empty tr s p : nexec tr s → all_stopped tr → wp_at (st_tree s) p = ∅.
Proof. intros Hx Ha. by eapply nexec_all_stopped. Qed.
Theorem C21_os_empty tr s : nexec_where P sepc os_good tr s → all_stopped tr → os_watches (st_log s) = ∅.
Proof.
  intros Hx Ha. apply map_eq. intros nm. rewrite lookup_empty. destruct (os_watches (st_log s) !! nm) as [x|] eqn:El; [|done].
  exfalso. destruct (C19_os_only _ _ _ _ Hx El) as (p&_&_&Hne). apply Hne.
  eapply C21_tree_empty; [by eapply nexec_where_nexec|done].
Qed.

(** ** C22: Stop releases watches nobody needs *)
(** Proved when the stopped channel is the last one on the path *and above it*; the
    full claim (last on the path alone) is refuted below. *)
Theorem C22_stop_releases_partial tr s E s' r n p :
  nexec_where P sepc os_good tr s → nenv E → reliable E → nstep E s (NStop n) = (s', r) → comps_ok sepc p →
  (∀ q m, q `prefix_of` p → holds P tr q m → m = n) →
  wp_at (st_tree s') p = ∅ ∧ os_watches (st_log s') !! render p = None.
Proof.
  intros Hw HE Hrel Hs Hp Hno. assert (wp_at (st_tree s') p = ∅) as He.
  { simpl in Hs. injection Hs as <- <-. eapply nexec_stop_alone; [done|by eapply nexec_where_nexec|done|done]. }
  split; [done|].
  assert (nexec_where P sepc os_good (tr ++ [(NStop n, r)]) s') as Hw' by (eapply nw_step; done).
  destruct (nexec_osi P HP sepc _ _ Hw') as [_ Ho]. rewrite (oi_tab _ _ _ Ho), He by done. done.
Qed.

(** ** C24: failed plain Watch *)
(** Other channels are unaffected, and the failed channel itself gains at most events
    that were already being reported for the path to others.  (That it may gain
    those refutes the full claim, see below.) *)
Theorem C24_failed_watch_partial tr s E p n e s' r :
  nexec tr s → nenv E → nop_ok (NWatch p false n e) → nstep E s (NWatch p false n e) = (s', r) → r ≠ ROk →
  (∀ E' ei d c m, m ≠ n → nenv E' → reported ei d c → offered E' s' ei (KUser m) = offered E' s ei (KUser m)) ∧
  (∀ q, q ≠ p → wget (wp_at (st_tree s') q) (KUser n) = wget (wp_at (st_tree s) q) (KUser n)) ∧
  ∃ x, wget (wp_at (st_tree s') p) (KUser n) = wget (wp_at (st_tree s) p) (KUser n) .| x ∧ incl_ev x e ∧
    (∀ i, has x i → ∃ k y, k ≠ KNil ∧ wp_at (st_tree s) p !! k = Some y ∧ has y i).
Proof.
  intros Hx HE Ho Hs Hr. destruct (nexec_inv P HP sepc _ _ Hx) as [Ht _].
  destruct (nstep_spec P HP sepc E s _ s' r HE Ho Ht Hs) as (Ht'&_&Hreg). destruct Hreg as [Hoth Hown].
  assert (incl_ev (ureg s p n) (ureg s' p n)) as Hlo by (destruct r; [done|apply Hown..]).
  split_and!.
  - intros E' ei d c m Hne HE' (Hev&Hom&Hd&Hc&Hp).
    destruct (dispatch_spec P HP HW sepc E' s ei d c HE' Ht Hev Hom Hd Hc Hp) as [-> _].
    destruct (dispatch_spec P HP HW sepc E' s' ei d c HE' Ht' Hev Hom Hd Hc Hp) as [-> _].
    apply deliveries_ext. intros q _. apply Hoth. congruence.
  - intros q Hq. apply Hoth. congruence.
  - exists (ureg s' p n .&^ ureg s p n). split; [change (ureg s' p n = ureg s p n .| (ureg s' p n .&^ ureg s p n)); clear - Hlo; bits|].
    split. { destruct r; [done|..]; destruct Hown as [_ Hhi]; clear - Hhi; bits. }
    destruct Ho as (Hu&H32&Hue). simpl in Hs. unfold nr_Watch in Hs.
    destruct (nr_add_spec P sepc E (st_tree s) p HE Ht Hu) as (t1&Hadd&Ht1&Hp1&Hw1&Hl1). rewrite Hadd in Hs.
    assert (disj_ev e (omit P)) as Hom by (clear - Hue; unfold user_ev, internal in *; bits).
    destruct (nr_watch_cases P sepc E (with_tree s t1) p n e s' r) as [(->&_)|(->&c&wp'&Hc&_&->&Hok&_&Hget&_)]; try done.
    { apply HE. }
    cbn [st_tree with_tree] in *. intros i Hi. unfold ureg in Hi. cbn [st_tree] in Hi.
    rewrite wp_at_set_wp, decide_True in Hi by done. rewrite Hget, Hw1 in Hi.
    assert (has (total P (wp_at (st_tree s) p)) i) as Ht2.
    { clear - Hi Hue. unfold user_ev in Hue. specialize (Hue i). rewrite !has_ldiff, !has_lor, !has_ldiff in Hi.
      destruct (has_dec (total P (wp_at (st_tree s) p)) i) as [|Hn]; [done|]. exfalso.
      destruct Hi as [[[?|?] Hz] ?]; [done|]. naive_solver. }
    unfold total in Ht2. rewrite has_ldiff, has_others in Ht2. destruct Ht2 as [(k&y&?&?&?) _]. eauto.
Qed.

(** ** C20, C26: recursive watches cover the directories below *)
(** In a filesystem whose directories are [D]: while a recursive watch is in force
    every directory at or below it is watched in the OS for its events and Create,
    after any further Watch and Stop calls, and after any directories were created
    and removed and their events processed -- provided the watcher performs what it
    is asked, and nobody had asked to watch a directory before it was created
    ([fexec]).  Without that proviso the claim is refuted below. *)
Theorem C20_covered_partial tr D s p n e q :
  fexec P sepc tr D s → in_force P tr p n e → q ∈ D → p `prefix_of` q →
  ∃ x, os_watches (st_log s) !! render q = Some (x, false) ∧ incl_ev (e .| Create P) x.
Proof. apply fexec_covered; done. Qed.
Theorem C20_dirs_recorded tr D s : fexec P sepc tr D s → dirs_ok sepc D ∧ nexec_where P sepc os_good tr s.
Proof. intros Hx. split; [by apply (fexec_inv P HP) in Hx as [? _]|by eapply fexec_where]. Qed.
(** A recursive Watch on an existing directory succeeds. *)
Theorem C20_watch_succeeds tr D s E p n e s' r :
  fexec P sepc tr D s → nenv E → nop_ok (NWatch p true n e) → p ∈ D → fs_env sepc D E →
  nstep E s (NWatch p true n e) = (s', r) → r = ROk.
Proof.
  intros Hx HE Ho Hp HF Hs. destruct (fexec_inv P HP sepc _ _ _ Hx) as (HD&Ht&Hc&_).
  destruct (wrec_cov P HP sepc D E s p n e s' r HE Ho) as (_&_&_&Hr&_); try done; [|by apply Hr].
  apply HD in Hp as (_&_&?). done.
Qed.

Theorem C26_new_directory_partial tr D D' s E p s' r a n e q :
  fexec P sepc tr D s → nenv E → reliable E → dirs_ok sepc D' → fs_env sepc D' E →
  p ∈ D' → D ⊆ D' → (∀ q, q ∈ D' → q ∉ D → p `prefix_of` q) → p ∉ D → ¬ touched P tr p →
  nstep E s (NEvent (Create P) p) = (s', r) →
  in_force P tr a n e → a `prefix_of` p → p `prefix_of` q → q ∈ D' →
  ∃ x, os_watches (st_log s') !! render q = Some (x, false) ∧ incl_ev (e .| Create P) x.
Proof.
  intros Hx HE Hrel HD' HF Hp Hsub Hnew HpD Hnt Hs (tr1&tr2&->&H1&H2) Hap Hpq Hq.
  eapply (fexec_covered P HP sepc _ D' s' a n e q); [exact (fx_mkdir P sepc _ D D' p s E s' r Hx HE Hrel HD' HF Hp Hsub Hnew HpD Hnt Hs)| |done|by etrans].
  exists tr1, (tr2 ++ [(NEvent (Create P) p, r)]). split_and!; [by rewrite <-app_assoc| |].
  - intros r' [Hin|Hin%elem_of_list_singleton]%elem_of_app; [by eapply H1|done].
  - intros q' r' [Hin|Hin%elem_of_list_singleton]%elem_of_app; [by eapply H2|]. injection Hin as Heq _ _.
    exfalso. pose proof (pok_disj P HP 0 1 (Create P) (Remove P) eq_refl eq_refl ltac:(done)) as Hd.
    rewrite Heq in Hd. apply (nz_cr P HP). rewrite <-Heq. clear - Hd Heq. rewrite Heq. bits.
Qed.

(** ** C27: removed directories are forgotten *)
Theorem C27_removed_forgotten tr s E p s' r :
  nexec_where P sepc os_good tr s → nenv E → reliable E → gpath p →
  nstep E s (NEvent (Remove P) p) = (s', r) →
  (∀ q, p `prefix_of` q → st_tree s' !! q = None) ∧
  (∀ q, comps_ok sepc q → p `prefix_of` q → os_watches (st_log s') !! render q = None) ∧
  (∀ q, ¬ p `prefix_of` q → wp_at (st_tree s') q = wp_at (st_tree s) q) ∧
  (∀ q, comps_ok sepc q → ¬ p `prefix_of` q → os_watches (st_log s') !! render q = os_watches (st_log s) !! render q).
Proof.
  intros Hw HE Hrel Hg Hs. destruct (nexec_osi P HP sepc tr s Hw) as [Ht Ho].
  assert (nexec_where P sepc os_good (tr ++ [(NEvent (Remove P) p, r)]) s') as Hw' by (eapply nw_step; done).
  destruct (nexec_osi P HP sepc _ _ Hw') as [_ Ho']. simpl in Hs. injection Hs as <- <-.
  destruct (rmdir_spec P HP sepc E s p HE Ht Hg) as [Hwp Hn]. split_and!.
  - intros q Hq. destruct (st_tree _ !! q) eqn:Eq; [|done]. destruct (Hn q) as [_ ?]; [eauto|done].
  - intros q Hok Hq. rewrite (oi_tab _ _ _ Ho'), Hwp, decide_True by done. done.
  - intros q Hq. by rewrite Hwp, decide_False.
  - intros q Hok Hq. by rewrite (oi_tab _ _ _ Ho'), (oi_tab _ _ _ Ho), Hwp, decide_False by done.
Qed.

(** ** C28: no panic *)
Theorem C28_no_panic tr s : nexec tr s → st_panic s = false.
Proof. intros Hx. by apply (nexec_inv P HP sepc tr s). Qed.

(** ** C29: the root directory and its entries (refuted) *)
(** No event whose path is an entry of the root directory is ever offered to
    anybody, whatever is registered: the directory part of "/c" is the empty string,
    which the walk does not accept. *)
Theorem C29_top_level_refuted E t ei c :
  nenv E → comp_ok sepc c → ei_path ei = render [c] → nr_dispatch E t ei = ([], false).
Proof.
  intros HE Hc Hp. unfold nr_dispatch. rewrite Hp, (ne_sep _ _ _ HE).
  assert (split sepc (render [c]) = ([], c)) as ->.
  { change (render [c]) with (render ([] ++ [c])). by rewrite split_render. }
  unfold r_walkpath, r_root. rewrite (ne_vol _ _ _ HE).
  assert (nd_walkpath sepc (dispatch_fn E t ei) t (DAcc [] false None) [] [] = (DAcc [] false None, WPNotExist)) as ->; [|done].
  unfold nd_walkpath. destruct (indexrel sepc (name_at t []) []) eqn:Ei; [|done].
  exfalso. apply indexrel_Some in Ei as (r&Hr&_). by destruct (name_at t []).
Qed.
(** And registrations on the root directory itself deliver nothing: a channel that
    only ever asked for "/" is offered no event of any other path. *)
Theorem C29_root_refuted tr s E ei d c n :
  nexec tr s → nenv E → reported ei d c → gpath (d ++ [c]) →
  (∀ q, holds P tr q n → q = [[]]) → offered E s ei (KUser n) = 0%nat.
Proof.
  intros Hx HE Hrep (_&_&Hg) Hno. eapply C10_unrelated_silent; [done..|].
  intros q Hq Hh. apply Hno in Hh as ->. apply Hg. destruct Hq as [r Hr]. rewrite Hr. set_solver.
Qed.
(** ** C25: a recursive Watch that returns nil has watched every directory below *)
(** Proved for a watcher that performs what it is asked; refuted below when it may
    refuse. *)
Theorem C25_reliable_partial tr D s E p n e s' q :
  fexec P sepc tr D s → nenv E → nop_ok (NWatch p true n e) →
  os_good E (NWatch p true n e) → fs_env sepc D E → nstep E s (NWatch p true n e) = (s', ROk) →
  q ∈ D → p `prefix_of` q → ∃ x, os_watches (st_log s') !! render q = Some (x, false) ∧ incl_ev (e .| Create P) x.
Proof.
  intros Hx HE Ho Hg HF Hs Hq Hpq.
  eapply (fexec_covered P HP sepc (tr ++ [(NWatch p true n e, ROk)]) D s' p n e q); [|exists tr, []|done|done].
  - by eapply (fx_op P sepc tr D s E (NWatch p true n e) s' ROk).
  - split_and!; [done|set_solver|set_solver].
Qed.
End nonrec_props.

(** ** Instances *)
(** All on Linux, with the directories /a, /a/b and /x. *)
Notation C := (Create linux). Notation R := (Remove linux).
Notation W := (Write linux). Notation M := (Rename linux).
Definition D0 : gset path := dirs ["a"; "a/b"; "x"]%string.
Definition E0 : env := mkenv linux D0 allok.
(** The watcher refuses everything. *)
Definition E0bad : env := mkenv linux D0 (λ _ _, false).
Definition evt (e : N) (p : string) : event_info := EI e (b p) (Some false) fTypeUnknown.
Lemma linux_ok : platform_ok linux.
Proof. apply C56_ex. Qed.
Lemma D0_ok : dirs_ok slash D0.
Proof. apply dirs_okb_ok. by vm_compute. Qed.
Lemma E0_ok W' : nenv linux slash (mkenv linux D0 W').
Proof. apply mkenv_nenv, D0_ok. Qed.
Local Ltac dec := apply (bool_decide_unpack _); by vm_compute.
Local Ltac good := cbn [snd fst os_good]; split_and?; first [done|apply reliable_allok|dec].
Local Ltac ops :=
  repeat (apply Forall_cons; split; [split; [apply E0_ok|split; [by vm_compute|good]]|]); apply Forall_nil; done.
Lemma reported_linux e p d c :
  negb (e =? 0) && (e .& omit linux =? 0) && bool_decide (d ≠ []) && bool_decide (Forall (comp_ok slash) d) &&
  bool_decide ([] ∉ removelast d) && bool_decide (comp_ok slash c) && bool_decide (b p = render slash (d ++ [c])) = true →
  reported linux slash (evt e p) d c.
Proof.
  rewrite !andb_true_iff, !bool_decide_eq_true, negb_true_iff, N.eqb_eq, N.eqb_neq.
  intros [[[[[[? ?] ?] ?] ?] ?] ?]. repeat split; try done. by apply land_zero_disj.
Qed.

(** Channel 1 recursive on /a for Create and Write, channel 2 on /a/b for Write,
    channel 3 on /x and stopped. *)
Definition ops1 : list (env * nop) := [
  (E0, NWatch (pth "a") true 1 (C .| W)); (E0, NWatch (pth "a/b") false 2 W);
  (E0, NWatch (pth "x") false 3 W); (E0, NWatch (pth "a/b") false 1 R); (E0, NStop 3)].
Definition tr1 := Eval vm_compute in (nrun init_st ops1).1.
Definition s1 := (nrun init_st ops1).2.
Lemma ops1_where : nexec_where linux slash os_good tr1 s1.
Proof. change tr1 with (nrun init_st ops1).1. apply nrun_where. unfold ops1. ops. Qed.
Lemma ops1_nexec : nexec linux slash tr1 s1.
Proof. eapply nexec_where_nexec, ops1_where. Qed.
Local Ltac members H := repeat match type of H with
  | _ ∈ _ :: _ => apply elem_of_cons in H as [H|H]
  | _ ∈ [] => by apply elem_of_nil in H
  end.
Definition tr0 := Eval vm_compute in (nrun init_st (take 4 ops1)).1.
Lemma tr0_eq : (nrun init_st (take 4 ops1)).1 = tr0.
Proof. by vm_compute. Qed.
Lemma tr1_no_failure : no_failure tr1.
Proof. repeat constructor. Qed.

Example C17_ex :
  nexec linux slash tr1 s1 ∧ no_failure tr1 ∧ reported linux slash (evt W "/a/b/f") (pth "a/b") (b "f") ∧
  offered E0 s1 (evt W "/a/b/f") (KUser 1) = 1%nat ∧ offered E0 s1 (evt W "/a/b/f") (KUser 2) = 1%nat ∧
  offered E0 s1 (evt W "/a/b/f") (KUser 3) = 0%nat ∧ offered E0 s1 (evt W "/a/b/f") (KUser 4) = 0%nat.
Proof.
  split_and!; [apply ops1_nexec|apply tr1_no_failure|apply reported_linux; by vm_compute|by vm_compute..].
Qed.
(** One event can be offered twice to one channel: for its registration on the
    directory and for the recursive one above. *)
Example C17_ex_twice :
  let s := (nstep slash E0 s1 (NWatch (pth "a/b") false 1 W)).1 in
  offered E0 s (evt W "/a/b/f") (KUser 1) = 2%nat.
Proof. by vm_compute. Qed.
Example C03_ex :
  let s' := (nstep slash E0 s1 (NWatch (pth "x") true 4 (W .| C))).1 in
  nop_ok linux slash (NWatch (pth "x") true 4 (W .| C)) ∧
  offered E0 s1 (evt W "/x/f") (KUser 4) = 0%nat ∧ offered E0 s' (evt W "/x/f") (KUser 4) = 1%nat ∧
  asked linux tr1 (pth "a") 1 = C .| W .| recursive linux ∧ asked linux tr1 (pth "a/b") 1 = R.
Proof. split_and!; [apply nop_okb_ok; by vm_compute|by vm_compute..]. Qed.
Example C08_tree_ex :
  nexec linux slash tr1 s1 ∧ wp_at (st_tree s1) (pth "a/b") !! KRec ≠ None ∧
  (nr_dispatch E0 (st_tree s1) (evt W "/a/b/f")).1 = [KUser 1; KUser 2].
Proof. split_and!; [apply ops1_nexec|by vm_compute..]. Qed.
(** Channel 2 watches /a/b; an event in /a/bb is not for it. *)
Example C10_tree_ex :
  reported linux slash (evt W "/a/bb/f") (pth "a/bb") (b "f") ∧
  (∀ q, q `prefix_of` pth "a/bb" ++ [b "f"] → ¬ holds linux tr1 q 2) ∧
  offered E0 s1 (evt W "/a/b/f") (KUser 2) = 1%nat ∧ offered E0 s1 (evt W "/a/bb/f") (KUser 2) = 0%nat.
Proof.
  split_and!; [apply reported_linux; by vm_compute| |by vm_compute..].
  intros q Hq (isrec&e&r&Hin)%holds_in. unfold tr1 in Hin. members Hin; try done. injection Hin as -> _ _ _.
  revert Hq. apply (bool_decide_unpack _). by vm_compute.
Qed.
Example C18_ex :
  nexec linux slash tr1 s1 ∧ ¬ outstanding tr1 3 ∧
  offered E0 (nrun init_st (take 4 ops1)).2 (evt W "/x/f") (KUser 3) = 1%nat ∧
  offered E0 s1 (evt W "/x/f") (KUser 3) = 0%nat.
Proof.
  split_and!; [apply ops1_nexec| |by vm_compute..].
  assert (tr1 = (nrun init_st (take 4 ops1)).1 ++ [(NStop 3, ROk)]) as -> by (by vm_compute). by intros [? _]%(outstanding_snoc linux linux_ok).
Qed.
Example C19_ex :
  nexec_where linux slash os_good tr1 s1 ∧
  os_watches (st_log s1) !! b "/a/b" = Some (C .| W .| R, false) ∧
  os_watches (st_log s1) !! b "/a" = Some (C .| W, false) ∧ os_watches (st_log s1) !! b "/x" = None.
Proof. split_and!; [apply ops1_where|by vm_compute..]. Qed.
Example C23_ex : nexec_where linux slash os_good tr1 s1 ∧ length (st_log s1) = 5%nat.
Proof. split_and!; [apply ops1_where|by vm_compute]. Qed.
Definition ops2 : list (env * nop) := ops1 ++ [(E0, NStop 1); (E0, NStop 2)].
Example C21_ex :
  nexec_where linux slash os_good (nrun init_st ops2).1 (nrun init_st ops2).2 ∧ all_stopped (nrun init_st ops2).1.
Proof.
  split; [apply nrun_where; unfold ops2, ops1; ops|].
  assert ((nrun init_st ops2).1 = (tr1 ++ [(NStop 1, ROk)]) ++ [(NStop 2, ROk)]) as -> by (by vm_compute).
  intros n [Hn2 [Hn1 Ho]%(outstanding_snoc linux linux_ok)]%(outstanding_snoc linux linux_ok).
  assert (tr1 = (nrun init_st (take 4 ops1)).1 ++ [(NStop 3, ROk)]) as Heq1 by (by vm_compute). rewrite Heq1 in Ho. clear Heq1. apply (outstanding_snoc linux linux_ok) in Ho as [Hn3 Ho].
  assert (∃ p isrec e r, (NWatch p isrec n e, r) ∈ (nrun init_st (take 4 ops1)).1) as (p&isrec&e&r&Hin).
  { destruct Ho as (l1&p&isrec&e&r&l2&->&_). exists p, isrec, e, r. rewrite elem_of_app, elem_of_cons. auto. }
  clear Ho. rewrite tr0_eq in Hin. unfold tr0 in Hin. members Hin; try done; injection Hin as _ _ -> _ _; done.
Qed.
Example C22_ex :
  let l := take 4 ops1 in
  nexec_where linux slash os_good (nrun init_st l).1 (nrun init_st l).2 ∧
  (∀ q m, q `prefix_of` pth "x" → holds linux (nrun init_st l).1 q m → m = 3%positive) ∧
  os_watches (st_log (nrun init_st l).2) !! b "/x" = Some (W, false).
Proof.
  cbn zeta. split_and!; [apply nrun_where; unfold ops1; ops| |by vm_compute].
  intros q m Hq (isrec&e&r&Hin)%holds_in. rewrite tr0_eq in Hin. unfold tr0 in Hin. members Hin; try done; injection Hin as -> _ -> _ _; try done;
    exfalso; revert Hq; apply (bool_decide_unpack _); by vm_compute.
Qed.
Example C24_ex :
  let s' := (nstep slash E0bad s1 (NWatch (pth "x") false 4 W)).1 in
  (nstep slash E0bad s1 (NWatch (pth "x") false 4 W)).2 = RErr ∧
  offered E0 s' (evt W "/x/f") (KUser 4) = 0%nat.
Proof. by vm_compute. Qed.
Example C27_ex :
  let s' := (nstep slash E0 s1 (NEvent R (pth "a/b"))).1 in
  gpath slash (pth "a/b") ∧ is_Some (os_watches (st_log s1) !! b "/a/b") ∧
  os_watches (st_log s') !! b "/a/b" = None ∧ st_tree s' !! pth "a/b" = None ∧
  os_watches (st_log s') !! b "/a" = Some (C .| W, false).
Proof. cbn zeta. split_and!; [apply gpathb_ok; by vm_compute|dec|by vm_compute..]. Qed.
Example C28_ex : nexec linux slash tr1 s1 ∧ length tr1 = 5%nat.
Proof. split; [apply ops1_nexec|done]. Qed.

(** Recursive watches: the history above is one on the filesystem [D0]. *)
Local Ltac fops :=
  repeat (apply Forall_cons; split; [split; [apply E0_ok|split; [by vm_compute|split; [good|split; [apply mkenv_fs, D0_ok|done]]]]|]); apply Forall_nil; done.
Lemma ops1_fexec : fexec linux slash tr1 D0 s1.
Proof. assert (tr1 = (nrun init_st ops1).1) as -> by (by vm_compute). apply nrun_fexec; [apply D0_ok|]. unfold ops1. fops. Qed.
Lemma tr1_in_force : in_force linux tr1 (pth "a") 1 (C .| W).
Proof.
  exists [], (tail tr1). split_and!; [done| |].
  - intros r Hin. unfold tr1 in Hin. simpl in Hin. members Hin; done.
  - intros q r Hin. unfold tr1 in Hin. simpl in Hin. members Hin; done.
Qed.
Example C20_ex :
  fexec linux slash tr1 D0 s1 ∧ in_force linux tr1 (pth "a") 1 (C .| W) ∧ pth "a/b" ∈ D0 ∧ pth "a" `prefix_of` pth "a/b".
Proof. split_and!; [apply ops1_fexec|apply tr1_in_force|dec|dec]. Qed.
(** mkdir -p /a/n/m *)
Definition D1 : gset path := dirs ["a"; "a/b"; "x"; "a/n"; "a/n/m"]%string.
Lemma D1_ok : dirs_ok slash D1.
Proof. apply dirs_okb_ok. by vm_compute. Qed.
Definition E1 : env := mkenv linux D1 allok.
Example C26_ex :
  dirs_ok slash D1 ∧ fs_env slash D1 E1 ∧ D0 ⊆ D1 ∧ (∀ q, q ∈ D1 → q ∉ D0 → pth "a/n" `prefix_of` q) ∧
  pth "a/n" ∉ D0 ∧ ¬ touched linux tr1 (pth "a/n") ∧
  os_watches (st_log (nstep slash E1 s1 (NEvent C (pth "a/n"))).1) !! b "/a/n/m" = Some (C .| W, false).
Proof.
  split_and!; [apply D1_ok|apply mkenv_fs, D1_ok|dec| |dec| |by vm_compute].
  - intros q Hq HqD. apply (bool_decide_unpack (pth "a/n" `prefix_of` q)).
    assert (set_Forall (λ q, q ∉ D0 → pth "a/n" `prefix_of` q) D1) as H by dec. apply bool_decide_pack. by apply H.
  - intros (p'&isrec&n&e&r&Hin&Hp)%touched_in. unfold tr1 in Hin. members Hin; try done; injection Hin as -> _ _ _ _;
      revert Hp; apply (bool_decide_unpack _); by vm_compute.
Qed.

(** ** Refutations *)
(** C22: channel 2 listens on /a itself, channel 1 recursively below /a.  After
    Stop(1) the OS watch on /a/b stays although nobody is offered any event of it. *)
Definition ops22 : list (env * nop) := [
  (E0, NWatch (pth "a") true 1 C); (E0, NWatch (pth "a") false 2 C); (E0, NStop 1)].
Definition tr22 := Eval vm_compute in (nrun init_st ops22).1.
Theorem C22_last_on_path_refuted :
  let s := (nrun init_st ops22).2 in
  nexec_where linux slash os_good tr22 s ∧
  os_watches (st_log s) !! b "/a/b" = Some (C, false) ∧
  ∀ E ei c n, nenv linux slash E → reported linux slash ei (pth "a/b") c → offered E s ei (KUser n) = 0%nat.
Proof.
  cbn zeta. assert (nexec_where linux slash os_good tr22 (nrun init_st ops22).2) as Hw.
  { assert (tr22 = (nrun init_st ops22).1) as -> by (by vm_compute). apply nrun_where. unfold ops22. ops. }
  split_and!; [done|by vm_compute|]. intros E ei c n HE Hrep.
  assert (no_failure tr22) as Hnf by repeat constructor.
  assert (∀ q, asked linux tr22 q n = 0 ∨ q = pth "a" ∧ asked linux tr22 q n = C) as Ha.
  { intros q. unfold asked, tr22. cbn [foldl ask]. destruct (decide (1%positive = n)) as [<-|Hn]; [by left|].
    rewrite (decide_False (P := [_] = q ∧ 1%positive = n)) by naive_solver.
    destruct (decide ([["a"%char]] = q ∧ 2%positive = n)) as [[<- <-]|Hd]; [right; split; [done|by vm_compute]|by left]. }
  pose proof (C17_offered_iff linux linux_ok eq_refl slash tr22 _ E ei (pth "a/b") c n (nexec_where_nexec _ _ _ _ _ Hw) Hnf HE Hrep) as Hiff.
  destruct (offered E _ ei (KUser n)) as [|k]; [done|]. exfalso.
  destruct Hrep as (Hev&_). destruct Hiff as [Hiff _]. destruct Hiff as [Hi|[Hi|(a&Ha1&Ha2&Hi)]]; [lia|..].
  - destruct (Ha (pth "a/b" ++ [c])) as [Hz|[Hz _]]; [|by apply (f_equal length) in Hz].
    rewrite Hz in Hi. apply Hev. clear - Hi. bits.
  - destruct (Ha (pth "a/b")) as [Hz|[Hz _]]; [|done]. rewrite Hz in Hi. apply Hev. clear - Hi. bits.
  - destruct (Ha a) as [Hz|[_ Hz]]; rewrite Hz in Hi.
    + apply Hev. clear - Hi. bits.
    + assert (has (recursive linux) 24) as Hr by (by vm_compute). assert (has C 24) as Hc by (apply Hi; apply has_lor; by right).
      by vm_compute in Hc.
Qed.
(** C24: channel 1 already gets Create on /a.  The OS refuses channel 2's Watch for
    Create and Write, which returns an error; yet channel 2 is then offered the Create
    events of /a. *)
Theorem C24_failed_watch_refuted :
  let s := (nstep slash E0 init_st (NWatch (pth "a") false 1 C)).1 in
  let '(s', r) := nstep slash E0bad s (NWatch (pth "a") false 2 (C .| W)) in
  r = RErr ∧ offered E0 s (evt C "/a/f") (KUser 2) = 0%nat ∧ offered E0 s' (evt C "/a/f") (KUser 2) = 1%nat.
Proof. by vm_compute. Qed.
(** C25: the OS refuses to watch /a/b (say, no inotify watches are left).  The
    recursive Watch on /a returns nil and /a/b is not watched. *)
Theorem C25_reports_failure_refuted :
  let E := mkenv linux D0 (λ _ c, match c with WWatch p _ => bool_decide (p ≠ b "/a/b") | _ => true end) in
  let sr := nstep slash E init_st (NWatch (pth "a") true 1 C) in
  sr.2 = ROk ∧ pth "a/b" ∈ D0 ∧ os_watches (st_log sr.1) !! b "/a/b" = None.
Proof. cbn zeta. split_and!; [by vm_compute|dec|by vm_compute]. Qed.
(** A watcher as on a real system: it refuses paths that do not exist. *)
Definition Ereal (D : gset path) : env :=
  mkenv linux D (λ _ c, match c with
    | WWatch p _ => bool_decide (p ∈ render slash <$> elements D) | _ => true end).
(** C20: a recursive Watch on the missing directory /n fails.  The directory is
    created and the same Watch is tried again: it returns nil, but the OS was not
    asked to watch anything. *)
Definition D2 : gset path := dirs ["a"; "a/b"; "x"; "n"]%string.
Theorem C20_retry_refuted :
  let sr := nstep slash (Ereal D0) init_st (NWatch (pth "n") true 1 C) in
  let sr' := nstep slash (Ereal D2) sr.1 (NWatch (pth "n") true 1 C) in
  sr.2 = RErr ∧ sr'.2 = ROk ∧ pth "n" ∈ D2 ∧ os_watches (st_log sr'.1) = ∅.
Proof. cbn zeta. split_and!; [by vm_compute|by vm_compute|dec|by vm_compute]. Qed.
(** C26: channel 1 watches /a recursively for Remove.  Channel 2 tries to watch the
    missing /a/n recursively for Remove and gets an error.  Then /a/n is created and its
    event processed: /a/n is not watched. *)
Definition D3 : gset path := dirs ["a"; "a/b"; "x"; "a/n"]%string.
Definition ops26 : list (env * nop) := [
  (Ereal D0, NWatch (pth "a") true 1 R); (Ereal D0, NWatch (pth "a/n") true 2 R); (Ereal D3, NEvent C (pth "a/n"))].
Theorem C26_new_directory_refuted :
  (nrun init_st ops26).1 = [(NWatch (pth "a") true 1 R, ROk); (NWatch (pth "a/n") true 2 R, RErr); (NEvent C (pth "a/n"), ROk)] ∧
  os_watches (st_log (nrun init_st ops26).2) !! b "/a" = Some (R .| C, false) ∧
  pth "a/n" ∈ D3 ∧ os_watches (st_log (nrun init_st ops26).2) !! b "/a/n" = None.
Proof. split_and!; [by vm_compute|by vm_compute|dec|by vm_compute]. Qed.
Example C29_ex :
  let s := (nstep slash E0 (nstep slash E0 init_st (NWatch [[]] false 1 C)).1 (NWatch (pth "a") false 1 (R .| C))).1 in
  nr_dispatch E0 (st_tree s) (evt C "/q") = ([], false) ∧ nr_dispatch E0 (st_tree s) (evt R "/a") = ([], false) ∧
  os_watches (st_log s) !! b "/" = Some (C, false) ∧ os_watches (st_log s) !! b "/a" = Some (R .| C, false).
Proof. by vm_compute. Qed.

Print Assumptions C17_exact_delivery.
Print Assumptions C17_offered_iff.
Print Assumptions C17_exact_delivery_always.
Print Assumptions C03_watch_expands.
Print Assumptions C03_accumulates.
Print Assumptions C08_never_to_internal.
Print Assumptions C10_unrelated_silent.
Print Assumptions C18_stopped_silent.
Print Assumptions C18_others_unchanged.
Print Assumptions C19_os_exact.
Print Assumptions C19_os_only.
Print Assumptions C19_registered.
Print Assumptions C23_contract.
Print Assumptions C21_tree_empty.
Print Assumptions C21_os_empty.
Print Assumptions C22_stop_releases_partial.
Print Assumptions C24_failed_watch_partial.
Print Assumptions C20_covered_partial.
Print Assumptions C20_dirs_recorded.
Print Assumptions C20_watch_succeeds.
Print Assumptions C26_new_directory_partial.
Print Assumptions C27_removed_forgotten.
Print Assumptions C28_no_panic.
Print Assumptions C29_top_level_refuted.
Print Assumptions C29_root_refuted.
Print Assumptions C25_reliable_partial.
Print Assumptions C22_last_on_path_refuted.
Print Assumptions C24_failed_watch_refuted.
Print Assumptions C25_reports_failure_refuted.
Print Assumptions C20_retry_refuted.
Print Assumptions C26_new_directory_refuted.
