(** * Property theorems C01, C04-C10 (helper level), C16, C56. *)
From Verif Require Import Base Event Watchpoint WatchpointFacts Paths PathsFacts Spec BasicsFacts.
Local Open Scope N_scope.

(** ** C01: event lists are unions *)
Theorem C01_union P es i :
  es ≠ [] → has (joinevents P es) i ↔ ∃ e, e ∈ es ∧ has e i.
Proof.
  intros Hne. destruct es as [|e es]; [done|]. unfold joinevents.
  rewrite has_foldl_lor. split; [intros [H|H]; [by apply has_0 in H|done]|by right].
Qed.
Theorem C01_order_duplicates_irrelevant P es es' :
  es ≠ [] → (∀ e, e ∈ es ↔ e ∈ es') → joinevents P es = joinevents P es'.
Proof.
  intros Hne H. apply has_ext. intros i. rewrite C01_union by done.
  destruct es' as [|x es'].
  - destruct es as [|y es]; [done|]. exfalso.
    assert (y ∈ ([] : list N)) as Hy by (apply H; left). by apply elem_of_nil in Hy.
  - rewrite C01_union by done. naive_solver.
Qed.
Theorem C01_empty_is_All P i :
  has (joinevents P []) i ↔
    has (Create P) i ∨ has (Remove P) i ∨ has (Write P) i ∨ has (Rename P) i.
Proof. unfold joinevents, All. rewrite !has_lor. tauto. Qed.
Example C01_ex : joinevents linux [Create linux; Write linux; Create linux] = 0x500000.
Proof. done. Qed.

(** ** C04: the aggregate of a watchpoint *)
Theorem C04_aggregate P ops :
  wops_ok ops →
  (* per channel: exactly the wanted bits *)
  (∀ k i, k ≠ KNil → has (wget (wrun P ops) k) i ↔ wanted ops k i = true) ∧
  (* the aggregate: exactly the bits some channel wants (omit is never aggregated) *)
  (∀ i, has (wget (wrun P ops) KNil) i ↔
        (∃ k, wanted ops k i = true) ∧ ¬ has (omit P) i) ∧
  (* absent exactly when there is no entry at all *)
  (wrun P ops !! KNil = None ↔ ∀ k, wrun P ops !! k = None).
Proof.
  intros Hops. pose proof (wrun_agg P ops Hops) as Hagg. split; [|split].
  - intros. by apply wrun_wanted.
  - intros i. rewrite (agg_ok_get P) by done. rewrite has_ldiff. apply and_iff_compat_r.
    rewrite has_others_get. split.
    + intros (k&Hk&H). exists k. by apply (wrun_wanted P).
    + intros (k&Hw). destruct (decide (k = KNil)) as [->|Hk].
      * by rewrite wanted_nil_false in Hw.
      * exists k. split; [done|]. by apply wrun_wanted.
  - by apply (agg_absent P).
Qed.
(** The recomputation ranges over a Go map: any order gives the same result. *)
Theorem C04_iteration_order (wp : watchpoint) (ord : list (key * N)) :
  ord ≡ₚ map_to_list wp → foldr N.lor 0 (ord.*2) = joinall wp.
Proof. intros H. unfold joinall. apply (join_perm (ord.*2)). by rewrite H. Qed.
Definition ex_ops : list wop :=
  [WAdd (KUser 1) 0x100000; WAdd (KUser 2) 0x300000; WAdd KRec 0x3100000; WDel (KUser 2) 0x100000].
Example C04_ex_hyp : wops_ok ex_ops.
Proof. repeat constructor; done. Qed.
Example C04_ex : wget (wrun linux ex_ops) KNil = 0x1300000.
Proof. by vm_compute. Qed.

(** ** C05: diffs are exact *)
Definition reports (old new : N → Prop) (d : eventDiff) : Prop :=
  ((∀ i, old i ↔ new i) ∧ d = (0, 0)) ∨
  ((∃ i, ¬ (old i ↔ new i)) ∧ (∀ i, has d.1 i ↔ old i) ∧ (∀ i, has d.2 i ↔ new i)).
Lemma diff_exact_reports P old new d :
  diff_exact (total P (wrun P old)) (total P (wrun P new)) d → wops_ok old → wops_ok new →
  reports (visible P old) (visible P new) d.
Proof.
  intros H Ho Hn. destruct H as [[E ->]|[E ->]].
  - left. split; [|done]. intros i.
    rewrite <-(wrun_total P old) by done. rewrite <-(wrun_total P new) by done. by rewrite E.
  - right. simpl. split; [|split].
    + destruct (decide (total P (wrun P old) .&^ total P (wrun P new) = 0)) as [E1|E1].
      * destruct (decide (total P (wrun P new) .&^ total P (wrun P old) = 0)) as [E2|E2].
        -- destruct E. apply has_ext. intros i.
           apply eq_at with (i:=i) in E1. apply eq_at with (i:=i) in E2.
           rewrite N.ldiff_spec, N.bits_0 in *. unfold has.
           destruct (N.testbit _ i), (N.testbit _ i); done.
        -- apply nonzero_bit in E2 as [i [H1 H2]%has_ldiff]. exists i.
           rewrite <-!(wrun_total P) by done. tauto.
      * apply nonzero_bit in E1 as [i [H1 H2]%has_ldiff]. exists i.
        rewrite <-!(wrun_total P) by done. tauto.
    + intros i. by apply wrun_total.
    + intros i. by apply wrun_total.
Qed.
Theorem C05_add_diff P ops k e :
  wops_ok ops → k ≠ KNil →
  reports (visible P ops) (visible P (ops ++ [WAdd k e])) (wadd P (wrun P ops) k e).2.
Proof.
  intros Ho Hk. assert (wops_ok (ops ++ [WAdd k e])) by (by apply wops_ok_snoc).
  apply diff_exact_reports; try done. rewrite (wrun_snoc P ops). apply wadd_diff; [done|].
  by apply wrun_agg.
Qed.
Theorem C05_del_diff P ops k e :
  wops_ok ops → k ≠ KNil →
  reports (visible P ops) (visible P (ops ++ [WDel k e])) (wdel P (wrun P ops) k e).2.
Proof.
  intros Ho Hk. assert (wops_ok (ops ++ [WDel k e])) by (by apply wops_ok_snoc).
  apply diff_exact_reports; try done. rewrite (wrun_snoc P ops). apply wdel_diff; [done|].
  by apply wrun_agg.
Qed.
(** The dry run predicts the change to one channel's own set without making it. *)
Theorem C05_dryAdd P (wp : watchpoint) k e :
  (incl_ev (e .&^ internal P) (wget wp k) ∧ dryAdd P wp k e = (0, 0)) ∨
  (¬ incl_ev (e .&^ internal P) (wget wp k) ∧
   ∀ i, (has (dryAdd P wp k e).1 i ↔ has (wget wp k) i ∧ ¬ has (internal P) i) ∧
        (has (dryAdd P wp k e).2 i ↔ (has (wget wp k) i ∨ has e i) ∧ ¬ has (internal P) i)).
Proof.
  unfold dryAdd. destruct (N.eqb_spec (wget wp k .& (e .&^ internal P)) (e .&^ internal P)) as [E|E].
  - left. split; [|done]. by apply land_eq_incl.
  - right. rewrite <-land_eq_incl. split; [done|]. intros i. cbn.
    rewrite has_lor, !has_ldiff. tauto.
Qed.
Example C05_ex : (wadd linux (wrun linux ex_ops) (KUser 3) 0x1400000).2 = (0x300000, 0x700000).
Proof. by vm_compute. Qed.
Example C05_ex_none : (wdel linux (wrun linux ex_ops) (KUser 1) 0x100000).2 = none.
Proof. by vm_compute. Qed.

(** ** C06: dispatch at a watchpoint is exact (and reaches each channel once) *)
Theorem C06_unix P ops ord ei extra :
  windows P = false → wops_ok ops → ord ≡ₚ map_to_list (wrun P ops) →
  disj_ev (ei_event ei .| extra) (omit P) →      (* not an internally marked event *)
  NoDup (wtargets P (wrun P ops) ord ei extra) ∧
  ∀ k, k ∈ wtargets P (wrun P ops) ord ei extra ↔
    k ≠ KNil ∧ (∃ s, wrun P ops !! k = Some s) ∧
    (∀ i, has (omit P) i → wanted ops k i = false) ∧
    (∀ i, has (ei_event ei .| extra) i → wanted ops k i = true).
Proof.
  intros Hw Ho Hord Hom. split; [by apply wtargets_NoDup|]. intros k.
  assert (eventmask P ei extra = ei_event ei .| extra) as Em by (unfold eventmask; by rewrite Hw).
  rewrite wtargets_exact; try done; [|by apply wrun_agg|by rewrite Em]. rewrite Em.
  split.
  - intros (Hk&s&Hs&Hd&Hi). split; [done|]. split; [by eauto|].
    assert (wget (wrun P ops) k = s) as Hg by (unfold wget; by rewrite Hs).
    split; intros i Hi'.
    + apply not_true_iff_false. intros Hwt. apply (wrun_wanted P) in Hwt; [|done..].
      rewrite Hg in Hwt. by eapply Hd.
    + apply (wrun_wanted P); [done..|]. rewrite Hg. by apply Hi.
  - intros (Hk&(s&Hs)&Hd&Hi). split; [done|]. exists s. split; [done|].
    assert (wget (wrun P ops) k = s) as Hg by (unfold wget; by rewrite Hs).
    split.
    + intros i H1 H2. rewrite <-Hg, wrun_wanted in H1 by done. rewrite Hd in H1; done.
    + intros i H1. rewrite <-Hg, wrun_wanted by done. by apply Hi.
Qed.
Theorem C06_windows P ops ord ei extra :
  windows P = true → wops_ok ops → ord ≡ₚ map_to_list (wrun P ops) →
  disj_ev (eventmask P ei extra) (omit P) →
  NoDup (wtargets P (wrun P ops) ord ei extra) ∧
  ∀ k, k ∈ wtargets P (wrun P ops) ord ei extra ↔
    k ≠ KNil ∧ (∃ s, wrun P ops !! k = Some s) ∧
    (∀ i, has (omit P) i → wanted ops k i = false) ∧
    ((∀ i, has (eventmask P ei extra) i → wanted ops k i = true) ∨
     (∃ i, has (eventmask P ei extra) i ∧ has fileNotifyChangeModified i ∧ wanted ops k i = true)).
Proof.
  intros Hw Ho Hord Hom. split; [by apply wtargets_NoDup|]. intros k.
  rewrite wtargets_exact_win; try done; [|by apply wrun_agg].
  split.
  - intros (Hk&s&Hs&Hd&Hi). split; [done|]. split; [by eauto|].
    assert (wget (wrun P ops) k = s) as Hg by (unfold wget; by rewrite Hs).
    split.
    + intros i Hi'.
      apply not_true_iff_false. intros Hwt. apply (wrun_wanted P) in Hwt; [|done..].
      rewrite Hg in Hwt. by eapply Hd.
    + destruct Hi as [Hi|(i&H1&H2&H3)].
      * left. intros i Hi'. apply (wrun_wanted P); [done..|]. rewrite Hg. by apply Hi.
      * right. exists i. split; [done|]. split; [done|]. apply (wrun_wanted P); [done..|]. by rewrite Hg.
  - intros (Hk&(s&Hs)&Hd&Hi). split; [done|]. exists s. split; [done|].
    assert (wget (wrun P ops) k = s) as Hg by (unfold wget; by rewrite Hs).
    split.
    + intros i H1 H2. rewrite <-Hg, wrun_wanted in H1 by done. rewrite Hd in H1; done.
    + destruct Hi as [Hi|(i&H1&H2&H3)].
      * left. intros i H1. rewrite <-Hg, wrun_wanted by done. by apply Hi.
      * right. exists i. split; [|done]. rewrite <-Hg. by apply wrun_wanted.
Qed.
(** What the windows event mask is: native action events are translated to the
    filter bits that stand for them, everything else is passed through. *)
Theorem C06_windows_mask P ei extra :
  windows P = true →
  (disj_ev (ei_event ei .| extra) fileActionAll → eventmask P ei extra = ei_event ei .| extra) ∧
  (¬ disj_ev (ei_event ei .| extra) fileActionAll →
   ∀ i, has (eventmask P ei extra) i ↔
     ¬ has fileActionAll i ∧
     (has (ei_event ei) i ∨ has extra i ∨
      has (match ei_ftype ei with
           | fTypeFile => FileNotifyChangeFileName
           | fTypeDirectory => FileNotifyChangeDirName
           | fTypeUnknown => fileNotifyChangeModified end) i)).
Proof.
  intros Hw. unfold eventmask. rewrite Hw. split.
  - intros Hd%land_zero_disj. by rewrite Hd.
  - intros Hd. destruct (N.eqb_spec ((ei_event ei .| extra) .& fileActionAll) 0) as [E|E].
    + apply land_zero_disj in E. done.
    + simpl. intros i. destruct (ei_ftype ei); rewrite has_ldiff, !has_lor; tauto.
Qed.
Definition ex_ei (e : N) : event_info := EI e (b "/a/b") (Some false) fTypeUnknown.
Example C06_ex :
  wtargets linux (wrun linux ex_ops) (map_to_list (wrun linux ex_ops)) (ex_ei 0x200000) 0 = [KUser 2].
Proof. by vm_compute. Qed.

(** ** C07: sending never blocks, drops only when full, FIFO, bounded *)
Theorem C07_channel cap ops :
  let '(ch, ob) := crun cap ops in
  (* everything accepted was received in order or is still buffered *)
  c_sent ob = c_got ob ++ ch_buf ch ∧
  (length (ch_buf ch) ≤ cap)%nat ∧
  (* a further send always completes: accepted iff a receiver waits or there is room *)
  (∀ ei, (try_send ch ei).2 = true ↔ (ch_waiting ch > 0)%nat ∨ (length (ch_buf ch) < cap)%nat) ∧
  (* a dropped event changes nothing *)
  (∀ ei, (try_send ch ei).2 = false → (try_send ch ei).1 = ch).
Proof.
  pose proof (crun_inv cap ops) as H. destruct (crun cap ops) as [ch ob]; simpl in H.
  destruct H as (Hc&Hl&Hw&Hs). split; [done|]. split; [done|]. split.
  - intros ei. unfold try_send. rewrite Hc. destruct (ch_waiting ch); simpl.
    + destruct (Nat.ltb_spec (length (ch_buf ch)) cap); simpl; split; (done || lia || intros [|]; lia).
    + split; [lia|done].
  - intros ei. unfold try_send. destruct (ch_waiting ch); simpl; [|done].
    destruct (_ <? _)%nat; done.
Qed.
Theorem C07_dispatch_isolated P wp ord ei extra cs k :
  ord ≡ₚ map_to_list wp →
  wdispatch P wp ord ei extra cs !! k =
    if bool_decide (k ∈ wtargets P wp ord ei extra)
    then (λ ch, (try_send ch ei).1) <$> cs !! k
    else cs !! k.
Proof.
  intros Hord. unfold wdispatch. case_bool_decide as E.
  - destruct (cs !! k) as [ch|] eqn:Ek; simpl.
    + apply send_targets_in; [by eapply wtargets_NoDup|done|done].
    + generalize (wtargets P wp ord ei extra) as ks. intros ks. clear E.
      revert cs Ek. induction ks as [|k' ks IH]; intros cs Ek; simpl; [done|].
      apply IH. unfold send_one. destruct (cs !! k') eqn:?; [|done].
      rewrite lookup_insert_ne; [done|]. congruence.
  - by apply send_targets_other.
Qed.
Example C07_ex : c_got (crun 1 [CSend (ex_ei 1); CSend (ex_ei 2); CRecv; CRecv; CSend (ex_ei 3)]).2
  = [ex_ei 1; ex_ei 3].
Proof. by vm_compute. Qed.

(** ** C08: internal and user events never mix at a watchpoint *)
Theorem C08_user_event_never_internal P ops ord ei extra k s :
  wops_ok ops → ord ≡ₚ map_to_list (wrun P ops) → platform_ok P →
  disj_ev (eventmask P ei extra) (omit P) →
  wrun P ops !! k = Some s → incl_ev (omit P) s →    (* an internal listener *)
  k ∉ wtargets P (wrun P ops) ord ei extra.
Proof.
  intros Ho Hord Hok Hd Hk Hs Hin. apply wtargets_elem in Hin as (_&_&s'&Hk'&Hm); [|done].
  rewrite Hk in Hk'. injection Hk' as <-. unfold matches in Hm.
  apply andb_true_iff in Hm as [Hm _]. apply N.eqb_eq in Hm. rewrite N.lxor_eq_0_iff in Hm.
  apply land_zero_disj in Hd. rewrite Hd in Hm. apply land_zero_disj in Hm.
  pose proof (nz_om P Hok) as Hnz. apply nonzero_bit in Hnz as [i Hi].
  eapply Hm; [by apply Hs|done].
Qed.
Theorem C08_internal_event_reaches_nobody P ops ord ei extra :
  wops_ok ops → ord ≡ₚ map_to_list (wrun P ops) → platform_ok P →
  incl_ev (omit P) (eventmask P ei extra) →
  wtargets P (wrun P ops) ord ei extra = [].
Proof.
  intros Ho Hord Hok Hi. unfold wtargets.
  destruct (matches P (wget (wrun P ops) KNil) (eventmask P ei extra)) eqn:Hm; [|done].
  exfalso. unfold matches in Hm. apply andb_true_iff in Hm as [Hm _].
  apply N.eqb_eq in Hm. rewrite N.lxor_eq_0_iff in Hm. rewrite (agg_ok_get P) in Hm by (by apply wrun_agg).
  pose proof (nz_om P Hok) as Hnz. apply nonzero_bit in Hnz as [i Hb].
  apply eq_at with (i:=i) in Hm. specialize (Hi i Hb). unfold has in *.
  rewrite !N.land_spec, N.ldiff_spec, Hb, Hi in Hm. by rewrite andb_false_r in Hm.
Qed.
Example C08_ex : KRec ∉ wtargets linux (wrun linux ex_ops) (map_to_list (wrun linux ex_ops)) (ex_ei 0x100000) 0.
Proof. vm_compute. set_solver. Qed.

(** ** C09: splitting paths *)
Theorem C09_split_with_separator sep s d bs :
  split sep s = (d, bs) → sep ∈ s → s = d ++ sep :: bs ∧ sep ∉ bs.
Proof.
  intros H Hin. destruct (split_cases sep s) as [(a&r&->&?&E)|[? ?]]; [|done].
  rewrite E in H. by injection H as -> ->.
Qed.
Theorem C09_split_without_separator sep s : sep ∉ s → split sep s = ([], s).
Proof. apply split_nosep. Qed.
Theorem C09_base sep s : base sep s = (split sep s).2.
Proof. apply base_split. Qed.
Definition slash : ascii := "/"%char.
Example C09_ex : split slash (b "/home/rob/f.txt") = (b "/home/rob", b "f.txt").
Proof. done. Qed.

(** ** C10: strict containment *)
Theorem C10_containment sep root name :
  (∀ n, indexrel sep root name = Some n ↔ n = S (length root) ∧ ∃ rest, name = root ++ sep :: rest) ∧
  (indexrel sep root name = None ↔ ¬ ∃ rest, name = root ++ sep :: rest).
Proof. split; [intros n; rewrite indexrel_Some; naive_solver|apply indexrel_None]. Qed.
Theorem C10_component_prefix sep cs ds :
  comps_ok sep cs → comps_ok sep ds →
  is_Some (indexrel sep (render sep cs) (render sep ds)) ↔ ∃ d es, ds = cs ++ d :: es.
Proof. apply indexrel_render. Qed.
Example C10_ex : indexrel slash (b "/a") (b "/ab") = None ∧ indexrel slash (b "/a") (b "/a/b") = Some 3%nat.
Proof. done. Qed.

(** ** C16: the recursive suffix *)
Theorem C16_suffix path p isrec :
  cutdots path = (p, isrec) →
  (isrec = true ↔ ∃ q, path = q ++ b "...") ∧
  path = if isrec then p ++ b "..." else p.
Proof.
  intros H. destruct (cutdots_spec path) as [(q&->&E)|[Hn E]]; rewrite E in H; injection H as <- <-.
  - split; [|done]. split; [|done]. intros _. by exists q.
  - split; [|done]. split; [done|]. intros ?. by destruct Hn.
Qed.
Example C16_ex : cutdots (b "/home/...") = (b "/home/", true) ∧ cutdots (b "/home/..") = (b "/home/..", false).
Proof. done. Qed.

(** ** C56: platform constants *)
Definition single_bitb (x : N) : bool := x =? 2 ^ N.log2 x.
Lemma single_bitb_ok x : single_bitb x = true → single_bit x.
Proof. intros H%N.eqb_eq. by exists (N.log2 x). Qed.
Theorem C56_constants P : P ∈ platforms → platform_ok P.
Proof.
  intros HP.
  assert (∀ l : list N,
    forallb (λ x, single_bitb x && (x <? 4294967296)) l = true →
    forallb (λ ix, forallb (λ jy, (fst ix =? fst jy)%nat || (snd ix .& snd jy =? 0)) (imap pair l)) (imap pair l) = true →
    consts P = l → platform_ok P) as Hgen.
  { intros l H1 H2 <-. rewrite forallb_forall in H1. split.
    - intros x Hx%elem_of_list_In. apply H1, andb_true_iff in Hx as [Hx _]. by apply single_bitb_ok.
    - intros x Hx%elem_of_list_In. apply H1, andb_true_iff in Hx as [_ Hx]. by apply N.ltb_lt.
    - intros i j x y Hi Hj Hij.
      rewrite forallb_forall in H2.
      assert (In (i,x) (imap pair (consts P))) as Hin1.
      { apply elem_of_list_In, elem_of_list_lookup. exists i. by rewrite list_lookup_imap, Hi. }
      assert (In (j,y) (imap pair (consts P))) as Hin2.
      { apply elem_of_list_In, elem_of_list_lookup. exists j. by rewrite list_lookup_imap, Hj. }
      apply H2 in Hin1. rewrite forallb_forall in Hin1. apply Hin1 in Hin2. simpl in Hin2.
      apply orb_true_iff in Hin2 as [E|E].
      + apply Nat.eqb_eq in E. done.
      + apply N.eqb_eq in E. by apply land_zero_disj. }
  unfold platforms in HP. rewrite !elem_of_cons, elem_of_nil in HP.
  destruct HP as [->|[->|[->|[->|[->|[->|[]]]]]]];
    eapply Hgen; try reflexivity; by vm_compute.
Qed.

(** Native event values that may be combined with the generic ones. *)
(** /repo/event_inotify.go:28-41 (linux inotify.h values), as documented *)
Definition linux_native : list N :=
  [0x1; 0x2; 0x4; 0x8; 0x10; 0x20; 0x40; 0x80; 0x100; 0x200; 0x400; 0x800].
(** /repo/event_kqueue.go:29-50 *)
Definition kqueue_native : list N := [0x1; 0x2; 0x4; 0x8; 0x10; 0x20; 0x40].
(** /repo/event_fen.go:23-45, solaris port.h *)
Definition fen_native : list N :=
  [0x1; 0x2; 0x4; 0x10; 0x20; 0x40; 0x100000; 0x10000000; 0x20000000; 0x40000000].
(** /repo/event_fsevents.go:24-44 minus the four generic aliases *)
Definition fsevents_native : list N :=
  [0x1; 0x2; 0x4; 0x8; 0x10; 0x20; 0x40; 0x80; 0x400; 0x2000; 0x4000; 0x8000; 0x10000; 0x20000; 0x40000].
(** /repo/event_readdcw.go:36-69 and dirmarker *)
Definition readdcw_native : list N :=
  [FileNotifyChangeFileName; FileNotifyChangeDirName; FileNotifyChangeAttributes; FileNotifyChangeSize;
   FileNotifyChangeLastWrite; FileNotifyChangeLastAccess; FileNotifyChangeCreation; FileNotifyChangeSecurity;
   FileActionAdded; FileActionRemoved; FileActionModified; FileActionRenamedOldName; FileActionRenamedNewName;
   dirmarker].
Definition native_of : list (platform * list N) :=
  [(linux, linux_native); (kqueue, kqueue_native); (fen, fen_native);
   (fsevents, fsevents_native); (readdcw, readdcw_native); (stub, [])].
Theorem C56_native_disjoint P l x c :
  (P, l) ∈ native_of → x ∈ l → c ∈ consts P → disj_ev x c.
Proof.
  intros H Hx Hc. apply land_zero_disj.
  assert (forallb (λ Pl, forallb (λ x, forallb (λ c, x .& c =? 0) (consts (fst Pl))) (snd Pl)) native_of = true)
    as Hall by (by vm_compute).
  rewrite forallb_forall in Hall. apply elem_of_list_In in H. apply Hall in H.
  rewrite forallb_forall in H. apply elem_of_list_In in Hx. apply H in Hx.
  rewrite forallb_forall in Hx. apply elem_of_list_In in Hc. apply Hx in Hc. by apply N.eqb_eq.
Qed.
Theorem C56_native_pairwise_disjoint P l i j x y :
  (P, l) ∈ native_of → l !! i = Some x → l !! j = Some y → i ≠ j → disj_ev x y.
Proof.
  intros H Hx Hy Hij. apply land_zero_disj.
  assert (forallb (λ Pl, forallb (λ ix, forallb (λ jy, (fst ix =? fst jy)%nat || (snd ix .& snd jy =? 0))
      (imap pair (snd Pl))) (imap pair (snd Pl))) native_of = true) as Hall by (by vm_compute).
  rewrite forallb_forall in Hall. apply elem_of_list_In in H. apply Hall in H.
  rewrite forallb_forall in H.
  assert (In (i,x) (imap pair (snd (P,l)))) as Hin1.
  { apply elem_of_list_In, elem_of_list_lookup. exists i. simpl. by rewrite list_lookup_imap, Hx. }
  assert (In (j,y) (imap pair (snd (P,l)))) as Hin2.
  { apply elem_of_list_In, elem_of_list_lookup. exists j. simpl. by rewrite list_lookup_imap, Hy. }
  apply H in Hin1. rewrite forallb_forall in Hin1. apply Hin1 in Hin2. simpl in Hin2.
  apply orb_true_iff in Hin2 as [E|E]; [by apply Nat.eqb_eq in E|by apply N.eqb_eq in E].
Qed.
Example C56_ex : linux ∈ platforms ∧ platform_ok linux.
Proof. split; [left|apply C56_constants; left]. Qed.

Print Assumptions C01_union.
Print Assumptions C01_order_duplicates_irrelevant.
Print Assumptions C01_empty_is_All.
Print Assumptions C04_aggregate.
Print Assumptions C04_iteration_order.
Print Assumptions C05_add_diff.
Print Assumptions C05_del_diff.
Print Assumptions C05_dryAdd.
Print Assumptions C06_unix.
Print Assumptions C06_windows.
Print Assumptions C06_windows_mask.
Print Assumptions C07_channel.
Print Assumptions C07_dispatch_isolated.
Print Assumptions C08_user_event_never_internal.
Print Assumptions C08_internal_event_reaches_nobody.
Print Assumptions C09_split_with_separator.
Print Assumptions C09_split_without_separator.
Print Assumptions C09_base.
Print Assumptions C10_containment.
Print Assumptions C10_component_prefix.
Print Assumptions C16_suffix.
Print Assumptions C56_constants.
Print Assumptions C56_native_disjoint.
Print Assumptions C56_native_pairwise_disjoint.
