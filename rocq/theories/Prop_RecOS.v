(** * Property theorems C32, C34, C35: what the recursive tree makes the OS watch *)
From Verif Require Import Base Event Watchpoint WatchpointFacts Paths PathsFacts Loop LoopFacts
  Node NodeFacts SpecTree WalkFacts RootFacts NonRec NonRecWp Rec SpecNonRec SpecOS SpecRec
  RecFacts RecReg RecStop RecDisp RecStep RecTidy RecCopy RecOS RecOrder RecOSStop RecWatches NonRecRun RecRun RecORun Prop_Basics Prop_NonRec Prop_Rec.
Local Open Scope N_scope.

Section recos_props.
Context (P : platform) (HP : platform_ok P) (sepc : ascii) (w : bool) (isvol : str → Prop).
Notation nameof := (nameof sepc w).
Notation renv := (renv P sepc w isvol).
Notation rpath := (rpath sepc w isvol).
Notation rop_ok := (rop_ok P sepc w isvol).
Notation rstep := (rstep sepc w).
Notation rexec := (rexec P sepc w isvol).
Notation oexec := (oexec P sepc w isvol).
Notation orderly := (orderly P sepc w isvol).
Notation all_covered := (all_covered P sepc w isvol).
Notation no_excess := (no_excess P sepc w isvol).
Notation unrelated := (unrelated sepc w isvol).
Notation osm s := (os_watches (st_log s)).

(** Consequences of the invariant. *)
Lemma tidy_excess strict t m : tidy P sepc w isvol strict t m → no_excess (rgs t) m.
Proof.
  intros Ht x e k Hx. destruct (td_os _ _ _ _ _ _ _ Ht _ _ Hx) as (h&Hh&->&_&He&_&_). cbn [fst] in He. subst e.
  exists h. split_and!; try done. intros i. unfold wt. rewrite has_lor, !(has_wtotal P) by apply (td_wp _ _ _ _ _ _ _ Ht). split.
  - intros [(n&H1&H2)|(n&H1&H2)].
    + split; [done|]. exists h, n. split; [done|]. by rewrite rgs_plain by apply Hh.
    + split; [done|]. destruct (td_in _ _ _ _ _ _ _ Ht h n i (proj1 Hh) H1) as (q&Q1&Q2&Q3). exists q, n. split; [apply Q1|]. by rewrite rgs_plain.
  - intros (H1&q&n&Hq&H2). unfold rgs in H2. destruct (decide ([] ∈ q)) as [|Hqp]; [by apply has_0 in H2|].
    destruct (decide (q = h)) as [->|Hne]; [left; by exists n|right]. exists n. split; [|done].
    apply (td_cov _ _ _ _ _ _ _ Ht h q n i); done.
Qed.
Lemma tidy_reach strict t m E p n : renv E → tidy P sepc w isvol strict t m → rgs t p n ≠ 0 →
  ∃ q e k, rpath q ∧ q `prefix_of` p ∧ m !! nameof q = Some (e, k) ∧ incl_ev (rgs t p n .&^ internal P) e ∧
    (strict = true → q ≠ p ∨ rgs t p n .& recursive P ≠ 0 → k = true).
Proof.
  intros HE Ht Hne. pose proof Hne as [i Hi]%nonzero_bit.
  unfold rgs in Hi. destruct (decide ([] ∈ p)) as [|Hpp]; [by apply has_0 in Hi|].
  assert (∀ q, wpt P (wp_at t q)) as Hw by apply (td_wp _ _ _ _ _ _ _ Ht).
  assert (wt P t p ≠ 0) as Hwt by (by eapply wt_reg).
  destruct (td_top _ _ _ _ _ _ _ Ht p Hpp Hwt) as (q&Hq&Hqp&[[e k] Hv]).
  exists q, e, k. split_and!; try done.
  - intros j [J1 J2]%has_ldiff. destruct (tidy_excess _ _ _ Ht _ _ _ Hv) as (q'&Hq'&Hn&He).
    apply (name_inj P sepc w isvol E) in Hn as <-; try done. apply He. split; [done|]. by exists p, n.
  - intros Hst Hor. destruct (td_os _ _ _ _ _ _ _ Ht _ _ Hv) as (q'&Hq'&Hn&_&_&_&Hk).
    apply (name_inj P sepc w isvol E) in Hn as <-; try done. apply Hk. split; [done|].
    destruct (decide (q = p)) as [->|Hqne].
    + destruct Hor as [|Hrec]; [done|]. left. apply (isRecursive_user P _ n); [done|]. by rewrite rgs_plain in Hrec.
    + right. intros Hz. assert (has (wget (wp_at t (inact q)) (KUser n)) i) as K; [|rewrite Hz, wget_empty in K; by apply has_0 in K].
      apply (td_cov _ _ _ _ _ _ _ Ht q p n i); done.
Qed.
Lemma tidy_covered t m E : renv E → tidy P sepc w isvol true t m → all_covered (rgs t) m.
Proof.
  intros HE Ht p n Hne. destruct (tidy_reach true t m E p n HE Ht Hne) as (q&e&k&H1&H2&H3&H4&H5).
  exists q, e, k. split_and!; try done. intros Hor. apply H5; [done|]. rewrite bool_decide_eq_true in Hor. done.
Qed.
Lemma regs_ext (g g' : path → positive → N) m : (∀ p n, g p n = g' p n) → (all_covered g m → all_covered g' m) ∧ (no_excess g m → no_excess g' m).
Proof.
  intros H. split.
  - intros K p n. rewrite <-H. apply K.
  - intros K x e k Hx. destruct (K x e k Hx) as (q&?&?&He). exists q. split_and!; try done. intros i. rewrite He. by setoid_rewrite H.
Qed.
Lemma watches_ok tr : watches tr → all_ok tr.
Proof. intros H. eapply Forall_impl; [exact H|]. by intros [? ?] [_ ?]. Qed.
(** An environment exists once something has been done. *)
Lemma rexec_env tr s : rexec tr s → tr = [] ∧ s = init_st ∨ ∃ E, renv E.
Proof. destruct 1; [by left|right; eauto]. Qed.

(** ** C35: one OS watch per subtree *)
(** After any history of successful Watch calls, recursive or not, whatever the
    order in which maps are iterated, all OS watches are on paths of the model and no
    two of them are one above the other. *)
Theorem C35_unrelated_partial tr s :
  rexec tr s → watches tr →
  unrelated (osm s) ∧ ∀ x, is_Some (osm s !! x) → ∃ q, rpath q ∧ x = nameof q ∧ ∃ n, asked P tr q n ≠ 0.
Proof.
  intros Hx Hw. destruct (watches_tended P HP sepc w isvol tr s Hx Hw) as [Hs Hr]. split; [apply Hs|].
  intros x [v Hv]. destruct (td_os _ _ _ _ _ _ _ (so_tidy _ _ _ _ _ _ Hs) _ _ Hv) as (h&Hh&->&_). exists h. split_and!; try done.
  destruct (Hr h Hh ltac:(eauto)) as [n Hn]. exists n. rewrite (rexec_asked P HP sepc w isvol tr s) in Hn; [done|done|by apply watches_ok].
Qed.
(** A new parent watch replaces the watches below it: after a successful Watch on [p]
    there is an OS watch at or above [p] and none below. *)
Theorem C35_replaced_partial tr s E p isrec n e s' :
  rexec tr s → watches tr → renv E → rop_ok (NWatch p isrec n e) → e ≠ 0 → rstep E s (NWatch p isrec n e) = (s', ROk) →
  (∃ q, rpath q ∧ q `prefix_of` p ∧ is_Some (osm s' !! nameof q)) ∧
  ∀ q, rpath q → above p q → osm s' !! nameof q = None.
Proof.
  intros Hx Hw HE Hok He Hst.
  assert (st_panic s' = false) as Hpan.
  { destruct (tended_step P HP sepc w isvol false E s p isrec n e HE (watches_tended P HP sepc w isvol tr s Hx Hw)) as (s1&Hs1&Ht); try done; try apply Hok.
    cbn [SpecRec.rstep] in Hst. apply rec_Watch_allow in Hst. rewrite Hst in Hs1. injection Hs1 as <-. apply Ht. }
  assert (rexec (tr ++ [(NWatch p isrec n e, ROk)]) s') as Hx' by (by eapply rexec_step).
  assert (watches (tr ++ [(NWatch p isrec n e, ROk)])) as Hw' by (apply Forall_app_2; [done|by constructor]).
  destruct (watches_tended P HP sepc w isvol _ _ Hx' Hw') as [[Ht _ _] _].
  assert (∃ q, rpath q ∧ q `prefix_of` p ∧ is_Some (osm s' !! nameof q)) as Hex.
  { destruct (tidy_reach false _ _ E p n HE Ht) as (q&x&k&H1&H2&H3&_); [|exists q; by rewrite H3].
    rewrite (rexec_asked P HP sepc w isvol _ _ Hx' (watches_ok _ Hw')). unfold asked. rewrite foldl_app. cbn [foldl ask].
    rewrite decide_True by done. intros Hz. apply He. clear - Hz. bits. }
  split; [done|]. intros q Hq Hpq. destruct Hex as (q0&H1&H2&H3).
  assert (above q0 q) as Hab by (by eapply prefix_above).
  destruct (td_anti _ _ _ _ _ _ _ Ht q0 q H1 Hq Hab) as [K|K]; [rewrite K in H3; by destruct H3|done].
Qed.
(** The same along orderly histories, which may contain Stop. *)
Theorem C35_orderly_partial tr s : oexec tr s → unrelated (osm s).
Proof. intros H. apply (oexec_sound P HP sepc w isvol true) in H as (_&_&Hs). apply Hs. Qed.

(** ** C32: every registration is covered by an OS watch *)
(** Along orderly histories every registration is covered, and nothing is watched
    that nobody asked for. *)
Theorem C32_covered_partial tr s : oexec tr s → all_covered (asked P tr) (osm s) ∧ no_excess (asked P tr) (osm s).
Proof.
  intros H. pose proof (oexec_sound P HP sepc w isvol true tr s H) as (Hx&Hok&[Ht _ _]).
  pose proof (rexec_asked P HP sepc w isvol tr s Hx Hok) as Ha.
  split; [|by apply (regs_ext _ _ _ Ha), (tidy_excess true)].
  apply (regs_ext _ _ _ Ha). destruct (rexec_env _ _ Hx) as [[-> ->]|[E HE]]; [|by eapply tidy_covered].
  intros p n K. rewrite Ha in K. done.
Qed.
(** Likewise after any history of successful recursive Watch calls. *)
Theorem C32_recursive_partial tr s :
  rexec tr s → watches tr → Forall (λ '(o, _), recursively o) tr →
  all_covered (asked P tr) (osm s) ∧ no_excess (asked P tr) (osm s).
Proof.
  intros Hx Hw Hr. pose proof (recursively_tended P HP sepc w isvol tr s Hx Hw Hr) as [[Ht _ _] _].
  pose proof (rexec_asked P HP sepc w isvol tr s Hx (watches_ok _ Hw)) as Ha.
  split; [|by apply (regs_ext _ _ _ Ha), (tidy_excess true)].
  apply (regs_ext _ _ _ Ha). destruct (rexec_env _ _ Hx) as [[-> ->]|[E HE]]; [|by eapply tidy_covered].
  intros p n K. rewrite Ha in K. done.
Qed.
(** After any history of successful Watch calls, every registration has an OS watch
    with its events at or above its path; only the kind of that watch may be wrong. *)
Theorem C32_events_partial tr s p n :
  rexec tr s → watches tr → asked P tr p n ≠ 0 →
  no_excess (asked P tr) (osm s) ∧
  ∃ q e k, rpath q ∧ q `prefix_of` p ∧ osm s !! nameof q = Some (e, k) ∧ incl_ev (asked P tr p n .&^ internal P) e.
Proof.
  intros Hx Hw. pose proof (watches_tended P HP sepc w isvol tr s Hx Hw) as [[Ht _ _] _].
  pose proof (rexec_asked P HP sepc w isvol tr s Hx (watches_ok _ Hw)) as Ha. rewrite <-Ha. intros Hne.
  split; [by apply (regs_ext _ _ _ Ha), (tidy_excess false)|].
  destruct (rexec_env _ _ Hx) as [[-> ->]|[E HE]]; [by rewrite Ha in Hne|].
  destruct (tidy_reach false _ _ E p n HE Ht Hne) as (q&e&k&H1&H2&H3&H4&_). by exists q, e, k.
Qed.

(** ** C34: no panics *)
(** Along orderly histories neither Watch nor Stop panics, every call succeeds, and
    every call to the watcher respects its documented preconditions. *)
Theorem C34_orderly_partial tr s E o :
  oexec tr s → renv E → obliging P E → rop_ok o → orderly (asked P tr) (osm s) o →
  st_panic (rstep E s o).1 = false ∧ (rstep E s o).2 = ROk ∧ log_legal P (st_log (rstep E s o).1).
Proof.
  intros H HE HO Hok Hor. destruct (rstep E s o) as [s' r] eqn:Hst.
  assert (oexec (tr ++ [(o, r)]) s') as H' by (by eapply oexec_step).
  apply (oexec_sound P HP sepc w isvol true) in H' as (_&Hall&[_ Hl Hc]). cbn [fst snd].
  apply Forall_app in Hall as [_ [Hr _]%Forall_cons]. done.
Qed.
(** After any history of successful Watch calls the next Watch does not panic,
    whatever the watcher answers, and asks nothing of the watcher that its
    documentation forbids if it is granted all it asks. *)
Theorem C34_watches_partial tr s E p isrec n e :
  rexec tr s → watches tr → renv E → rop_ok (NWatch p isrec n e) → e ≠ 0 →
  st_panic (rstep E s (NWatch p isrec n e)).1 = false ∧
  ((rstep E s (NWatch p isrec n e)).2 = ROk → log_legal P (st_log (rstep E s (NWatch p isrec n e)).1)).
Proof.
  intros Hx Hw HE (H1&H2&H3) He. pose proof (watches_tended P HP sepc w isvol tr s Hx Hw) as Ht.
  destruct (tended_step P HP sepc w isvol false E s p isrec n e HE Ht H1 H2 H3 He) as (s1&Hs1&Ht1); [done|].
  cbn [SpecRec.rstep]. split.
  - apply (rec_Watch_calm P HP sepc w isvol E HE); try done.
    + by apply (rexec_inv P HP sepc w isvol tr s).
    + apply Ht.
    + rewrite Hs1. apply Ht1.
  - destruct (rec_Watch E s (nameof p) isrec (KUser n) e) as [s' r] eqn:Hst. cbn [fst snd]. intros ->.
    apply rec_Watch_allow in Hst. rewrite Hst in Hs1. injection Hs1 as <-. apply Ht1.
Qed.
End recos_props.

(** ** Instances (macOS) *)
Local Ltac mops := repeat (apply Forall_cons; split; [split; [apply menv_ok|by vm_compute]|]); by apply Forall_nil.
Local Ltac mexec := apply mexec_ok; [mops|by vm_compute].
Definition kinds (s : st) : list (str * (N * bool)) := map_to_list (os_watches (st_log s)).
(** Watch alone: two unrelated watches are replaced by one above both, which then
    takes in a registration below it. *)
Definition opsW : list (env * nop) := [
  (L, NWatch (pth "a/b") false 1 C); (L, NWatch (pth "a/c") true 2 W); (L, NWatch (pth "a") false 3 R);
  (L, NWatch (pth "a/b/d") true 1 W); (L, NWatch (pth "e") false 1 C)].
Example watches_ex :
  rexec fsevents slash false novol (trace_of opsW) (at_end opsW) ∧ watches (trace_of opsW) ∧
  kinds (at_end (take 2 opsW)) ≡ₚ [(b "/a/b", (C, false)); (b "/a/c", (W, true))] ∧
  kinds (at_end opsW) ≡ₚ [(b "/a", (C .| W .| R, true)); (b "/e", (C, false))].
Proof.
  split_and!; [mexec|apply watchesb_ok; by vm_compute|apply (bool_decide_unpack _); by vm_compute..].
Qed.
(** The next Watch is refused by the OS and does not panic. *)
Example C34_watches_ex :
  rop_ok fsevents slash false novol (NWatch (pth "a/f") true 4 (C .| Rename fsevents)) ∧
  (rstep slash false B (at_end opsW) (NWatch (pth "a/f") true 4 (C .| Rename fsevents))).2 = RErr ∧
  (rstep slash false L (at_end opsW) (NWatch (pth "a/f") true 4 (C .| Rename fsevents))).2 = ROk.
Proof. split_and!; [apply (rop_okb_ok fsevents slash false); by vm_compute|by vm_compute..]. Qed.
(** Recursive Watch alone. *)
Definition opsR : list (env * nop) := [
  (L, NWatch (pth "a/b") true 1 C); (L, NWatch (pth "a/c") true 2 W); (L, NWatch (pth "a") true 3 R);
  (L, NWatch (pth "a/b/d") true 1 W)].
Example recursively_ex :
  rexec fsevents slash false novol (trace_of opsR) (at_end opsR) ∧ watches (trace_of opsR) ∧
  Forall (λ '(o, _), recursively o) (trace_of opsR) ∧ kinds (at_end opsR) = [(b "/a", (C .| W .| R, true))].
Proof.
  split_and!; [mexec|apply watchesb_ok; by vm_compute|apply recursivelyb_ok; by vm_compute|apply (bool_decide_unpack _); by vm_compute].
Qed.
(** An orderly history with Stop, one that leaves registrations below the stopped one. *)
Definition opsO : list (env * nop) := [
  (L, NWatch (pth "a") true 1 C); (L, NWatch (pth "a/b") false 2 W); (L, NWatch (pth "a/b/c") true 2 R);
  (L, NWatch (pth "d") false 3 W); (L, NStop 1); (L, NWatch (pth "a/e") true 3 (C .| Rename fsevents))].
Example oexec_ex :
  oexec fsevents slash false novol (trace_of opsO) (at_end opsO) ∧
  kinds (at_end (take 5 opsO)) ≡ₚ [(b "/a", (W .| R, true)); (b "/d", (W, false))] ∧
  kinds (at_end opsO) ≡ₚ [(b "/a", (C .| W .| R .| Rename fsevents, true)); (b "/d", (W, false))].
Proof.
  split_and!; [|apply (bool_decide_unpack _); by vm_compute..].
  apply (orun_oexec fsevents slash false); [|by vm_compute].
  repeat (apply Forall_cons; split; [split; [apply menv_ok|apply L_obliging]|]). by apply Forall_nil.
Qed.

(** *** C35 for the root directory: its watch replaces nothing. *)
Theorem C35_root_refuted :
  let s := at_end [(L, NWatch (pth "a") true 1 C)] in
  let x := rec_Watch L s (b "/") true (KUser 1) C in
  x.2 = ROk ∧ kinds x.1 ≡ₚ [(b "/", (C, true)); (b "/a", (C, true))].
Proof. split; [by vm_compute|apply (bool_decide_unpack _); by vm_compute]. Qed.

Print Assumptions C35_unrelated_partial.
Print Assumptions C35_replaced_partial.
Print Assumptions C35_orderly_partial.
Print Assumptions C32_covered_partial.
Print Assumptions C32_recursive_partial.
Print Assumptions C32_events_partial.
Print Assumptions C34_orderly_partial.
Print Assumptions C34_watches_partial.
Print Assumptions C35_root_refuted.
