(** * Property theorem C57: from the kernel's records to the user's channels.

    The non-recursive tree and the inotify watcher put together: the calls the tree
    made to its watcher, with their results, are the calls in the watcher's history. *)
From Verif Require Import Base Event Watchpoint WatchpointFacts Paths PathsFacts Loop LoopFacts
  Node NodeFacts SpecTree WalkFacts RootFacts NonRec NonRecWp SpecNonRec SpecNonRecOS SpecOS NonRecFacts NonRecOps NonRecReg
  NonRecStep NonRecDisp NonRecStop NonRecOS NonRecCov NonRecFwd NonRecRun Prop_NonRec
  Clean SpecClean CleanFacts Inotify SpecInotify InotifyFacts InotifyTab Prop_Inotify.
Local Open Scope N_scope.

(** The watcher's history consists of the calls in the log, in order and with the same
    results, and of removals of files. *)
Inductive drives : wlog → itrace → Prop :=
  | dr_nil : drives [] []
  | dr_gone log itr E i r : drives log itr → drives log (itr ++ [(E, IGone i, r)])
  | dr_watch log itr E p e r : drives log itr → drives (log ++ [(WWatch p e, r)]) (itr ++ [(E, IWatch p e, r)])
  | dr_rewatch log itr E p e e' r : drives log itr → drives (log ++ [(WRewatch p e e', r)]) (itr ++ [(E, IWatch p e', r)])
  | dr_unwatch log itr E p r : drives log itr → drives (log ++ [(WUnwatch p, r)]) (itr ++ [(E, IUnwatch p, r)]).
Lemma drives_tab log itr p : drives log itr → itab itr !! p = fst <$> os_watches log !! p.
Proof.
  intros H. assert (∀ l x, os_watches (l ++ [x]) = os_step (os_watches l) x) as Hos by (intros; unfold os_watches; by rewrite foldl_app).
  revert p. induction H as [|log itr E i r H IH|log itr E q e r H IH|log itr E q e e' r H IH|log itr E q r H IH]; intros p.
  - done.
  - by rewrite itab_snoc.
  - rewrite itab_snoc, Hos. destruct r; cbn; [|apply IH].
    destruct (decide (p = q)) as [->|Hne]; [by rewrite !lookup_insert|by rewrite !lookup_insert_ne].
  - rewrite itab_snoc, Hos. destruct r; cbn; [|apply IH].
    destruct (decide (p = q)) as [->|Hne]; [by rewrite !lookup_insert|by rewrite !lookup_insert_ne].
  - rewrite itab_snoc, Hos. destruct r; cbn; [|apply IH].
    destruct (decide (p = q)) as [->|Hne]; [by rewrite !lookup_delete|by rewrite !lookup_delete_ne].
Qed.

(** The whole system on Linux: the tree after history [tr], the watcher after the
    calls this made. *)
Record linux_system (tr : list (nop * result)) (s : st) (itr : itrace) (si : ist) : Prop := {
  ls_drives : drives (st_log s) itr;
  ls_exec : iexec itr si;
  ls_orderly : orderly itr;
  ls_tree : nexec_where linux slash os_good tr s;
  ls_nofail : no_failure tr;
}.
(** Directory [d] (its components) exists as file [f], on which a watch is set. *)
Definition dir_watched (itr : itrace) (d : path) (f : positive) : Prop :=
  d ≠ [] ∧ Forall proper d ∧ ifile itr !! render slash d = Some (f, true).

Lemma proper_upath d : d ≠ [] → Forall proper d → gpath slash d.
Proof.
  intros Hn Hd. split_and!; [done| |].
  - eapply Forall_impl; [exact Hd|]. intros c (_&_&_&H). exact H.
  - intros H. rewrite Forall_forall in Hd. destruct (Hd [] H) as [? _]. done.
Qed.
Lemma topath_render d : d ≠ [] → topath d = render slash d.
Proof. by destruct d. Qed.
Lemma joined d c : d ≠ [] → Forall proper d → proper c → c ≠ [] ∧ fjoin (render slash d) c = render slash (d ++ [c]).
Proof.
  intros Hn Hd Hc. split; [apply Hc|]. rewrite <-(topath_render d) by done.
  rewrite fjoin_topath by done. apply topath_render. by destruct d.
Qed.
Lemma generic_bits g n : (g, n) ∈ generics → g ≠ 0 ∧ disj_ev g (internal linux) ∧ disj_ev g (omit linux) ∧ ∀ i, has n i → i < 12.
Proof.
  unfold generics. rewrite !elem_of_cons, elem_of_nil.
  intros H. assert (∀ x, x .& N.ones 12 = x → ∀ i, has x i → i < 12) as Hlt.
  { intros x <- i [_ Hi]%has_land. unfold has in Hi. by apply N.ones_spec_iff in Hi. }
  repeat (destruct H as [[= -> ->]|H]); [..|done].
  all: split_and!; [done|apply land_zero_disj; by vm_compute|apply land_zero_disj; by vm_compute|apply Hlt; by vm_compute].
Qed.
Lemma system_tab tr s itr si d n x :
  linux_system tr s itr si → Forall proper d → d ≠ [] → incl_ev x (asked linux tr d n) → disj_ev x (internal linux) → x ≠ 0 →
  ∃ m, itab itr !! render slash d = Some m ∧ incl_ev x m.
Proof.
  intros [Hd _ _ Ht Hnf] Hdp Hdn Hx Hxi Hx0.
  destruct (proper_upath d Hdn Hdp) as (_&Hc&_).
  destruct (C19_registered linux linux_ok slash tr s d n Ht Hnf Hc) as (m&Hm&Hi).
  { intros Hz. rewrite Hz in Hx. apply nonzero_bit in Hx0 as [i Hi]. apply Hx in Hi. by apply has_0 in Hi. }
  exists m. split; [by rewrite (drives_tab _ _ _ Hd), Hm|]. clear - Hx Hxi Hi. bits.
Qed.
Lemma info_reported e d c : d ≠ [] → Forall proper d → proper c → ie_event e ≠ 0 → disj_ev (ie_event e) (omit linux) →
  ie_path e = render slash (d ++ [c]) → reported linux slash (ie_info e) d c.
Proof.
  intros Hn Hd Hc H0 Ho Hp. pose proof (gpath_upath linux linux_ok slash d (proper_upath d Hn Hd)) as Hu.
  unfold reported. split_and!; try done. apply Hc.
Qed.

Lemma known_omit x : known x → disj_ev x (omit linux).
Proof.
  intros Hx j H1 H2. specialize (Hx j H1). assert ((All linux .| 0xfff) .& omit linux = 0) as Hz by (by vm_compute).
  eapply (has_0 j). rewrite <-Hz. apply has_land. split; assumption.
Qed.

(** Something happens to the entry [c] of directory [d] and a channel is registered
    there for a generic event that stands for it: the kernel has something to report,
    and whatever batch the record is read in, an event with the generic event's name
    and the joined path is offered to the channel. *)
Theorem C57_delivered tr s itr si E d f c n g raws i isdir cookie :
  linux_system tr s itr si → nenv linux slash E → dir_watched itr d f → proper c →
  (g, raws) ∈ generics → has raws i → incl_ev g (asked linux tr d n) →
  (∃ r, kernel_reports si f (2 ^ i) isdir cookie c r) ∧
  ∀ r rs, kernel_reports si f (2 ^ i) isdir cookie c r → r ∈ rs →
    ∃ e, e ∈ sent (i_m si) rs ∧ ie_info e = EI g (render slash (d ++ [c])) (Some isdir) fTypeUnknown ∧
      (0 < offered E s (ie_info e) (KUser n))%nat.
Proof.
  intros Hsys HE (Hdn&Hdp&Hf) Hc Hg Hi Hask. destruct (generic_bits g raws Hg) as (Hg0&Hgi&Hgo&Hlt).
  destruct (system_tab _ _ _ _ _ _ _ Hsys Hdp Hdn Hask Hgi Hg0) as (m&Hm&Hgm).
  pose proof Hsys as [Hdr Hx Hor Ht Hnf].
  assert (asks m i) as Ha by (right; eauto). split.
  - by eapply C38_kernel_active.
  - intros r rs Hk Hr. destruct (joined d c Hdn Hdp Hc) as [Hcn Hj].
    destruct (C38_complete itr si rs _ m f _ isdir cookie c r i Hx Hor Hm Hf eq_refl (Hlt i Hi) Ha Hk Hr) as [Hgen _].
    destruct (Hgen g raws Hg Hgm Hi) as (e&He&Hinf). exists e. split; [done|].
    assert (ie_info e = EI g (render slash (d ++ [c])) (Some isdir) fTypeUnknown) as Hie.
    { rewrite Hinf. destruct c; [done|]. by rewrite Hj. }
    split; [done|]. apply (C17_offered_iff linux linux_ok eq_refl slash tr s E (ie_info e) d c n); try done.
    + by eapply nexec_where_nexec.
    + unfold ie_info in Hie. injection Hie as He1 He2 _. apply info_reported; rewrite ?He1; done.
    + right. left. rewrite Hie. done.
Qed.
(** The same for one of inotify's own events. *)
Theorem C57_delivered_native tr s itr si E d f c n i isdir cookie :
  linux_system tr s itr si → nenv linux slash E → dir_watched itr d f → proper c →
  i < 12 → has (asked linux tr d n) i →
  (∃ r, kernel_reports si f (2 ^ i) isdir cookie c r) ∧
  ∀ r rs, kernel_reports si f (2 ^ i) isdir cookie c r → r ∈ rs →
    ∃ e, e ∈ sent (i_m si) rs ∧ ie_info e = EI (2 ^ i) (render slash (d ++ [c])) (Some isdir) fTypeUnknown ∧
      (0 < offered E s (ie_info e) (KUser n))%nat.
Proof.
  intros Hsys HE (Hdn&Hdp&Hf) Hc Hi Hask.
  assert (∀ y, y .& N.ones 12 = 0 → disj_ev (2 ^ i) y) as Hdis.
  { intros y Hy j Hj1 Hj2. apply has_pow2 in Hj1 as ->. assert (has (y .& N.ones 12) i) as Hz.
    { apply has_land. split; [done|]. unfold has. by apply N.ones_spec_iff. } rewrite Hy in Hz. by apply has_0 in Hz. }
  assert (2 ^ i ≠ 0) as Hg0 by (apply nonzero_bit; exists i; by apply has_pow2).
  assert (incl_ev (2 ^ i) (asked linux tr d n)) as Hincl by (intros j Hj; by apply has_pow2 in Hj as ->).
  destruct (system_tab _ _ _ _ _ _ _ Hsys Hdp Hdn Hincl (Hdis (internal linux) eq_refl) Hg0) as (m&Hm&Hgm).
  pose proof Hsys as [Hdr Hx Hor Ht Hnf].
  assert (has m i) as Hmi by (apply Hgm, has_pow2; done).
  assert (asks m i) as Ha.
  { left. split; [done|]. intros Hal. by apply (Hdis (All linux) eq_refl i); [apply has_pow2|]. } split.
  - by eapply C38_kernel_active.
  - intros r rs Hk Hr. destruct (joined d c Hdn Hdp Hc) as [Hcn Hj].
    destruct (C38_complete itr si rs _ m f _ isdir cookie c r i Hx Hor Hm Hf eq_refl Hi Ha Hk Hr) as [_ Hnat].
    destruct (Hnat Hmi) as (e&He&Hinf). exists e. split; [done|].
    assert (ie_info e = EI (2 ^ i) (render slash (d ++ [c])) (Some isdir) fTypeUnknown) as Hie.
    { rewrite Hinf. destruct c; [done|]. by rewrite Hj. }
    split; [done|]. apply (C17_offered_iff linux linux_ok eq_refl slash tr s E (ie_info e) d c n); try done.
    + by eapply nexec_where_nexec.
    + unfold ie_info in Hie. injection Hie as He1 He2 _. apply info_reported; rewrite ?He1; try done. by apply Hdis.
    + right. left. by rewrite Hie.
Qed.

(** What happens to a watched file (or directory) itself reaches the channels registered on it. *)
Theorem C57_delivered_self tr s itr si E d c f n g raws i isdir cookie :
  linux_system tr s itr si → nenv linux slash E → d ≠ [] → dir_watched itr (d ++ [c]) f →
  (g, raws) ∈ generics → has raws i → incl_ev g (asked linux tr (d ++ [c]) n) →
  (∃ r, kernel_reports si f (2 ^ i) isdir cookie [] r) ∧
  ∀ r rs, kernel_reports si f (2 ^ i) isdir cookie [] r → r ∈ rs →
    ∃ e, e ∈ sent (i_m si) rs ∧ ie_info e = EI g (render slash (d ++ [c])) (Some isdir) fTypeUnknown ∧
      (0 < offered E s (ie_info e) (KUser n))%nat.
Proof.
  intros Hsys HE Hd0 (Hdn&Hdp&Hf) Hg Hi Hask. destruct (generic_bits g raws Hg) as (Hg0&Hgi&Hgo&Hlt).
  destruct (system_tab _ _ _ _ _ _ _ Hsys Hdp Hdn Hask Hgi Hg0) as (m&Hm&Hgm).
  pose proof Hsys as [Hdr Hx Hor Ht Hnf]. apply Forall_app in Hdp as [Hdp Hc]. apply Forall_cons_1, proj1 in Hc.
  assert (asks m i) as Ha by (right; eauto). split.
  - by eapply C38_kernel_active.
  - intros r rs Hk Hr.
    destruct (C38_complete itr si rs _ m f _ isdir cookie [] r i Hx Hor Hm Hf eq_refl (Hlt i Hi) Ha Hk Hr) as [Hgen _].
    destruct (Hgen g raws Hg Hgm Hi) as (e&He&Hie). exists e. split; [done|]. split; [done|].
    apply (C17_offered_iff linux linux_ok eq_refl slash tr s E (ie_info e) d c n); try done.
    + by eapply nexec_where_nexec.
    + unfold ie_info in Hie. injection Hie as He1 He2 _. apply info_reported; rewrite ?He1; done.
    + left. rewrite Hie. done.
Qed.

(** Nobody else gets anything: whatever the kernel reports about an entry of a watched
    directory, every event made of it carries the entry's path and is offered exactly
    to the channels registered for it on the entry, on the directory, or recursively
    above. *)
Theorem C57_only_registered tr s itr si E d f c n ev isdir cookie r e :
  linux_system tr s itr si → nenv linux slash E → dir_watched itr d f → proper c →
  kernel_reports si f ev isdir cookie c r → e ∈ sent (i_m si) [r] →
  ie_path e = render slash (d ++ [c]) ∧
  ((0 < offered E s (ie_info e) (KUser n))%nat ↔
    incl_ev (ie_event e) (asked linux tr (d ++ [c]) n) ∨ incl_ev (ie_event e) (asked linux tr d n) ∨
    ∃ a, a `prefix_of` d ∧ a ≠ d ∧ incl_ev (ie_event e .| recursive linux) (asked linux tr a n)).
Proof.
  intros Hsys HE (Hdn&Hdp&Hf) Hc (wd&m'&Hk&_&->) He. pose proof Hsys as [Hdr Hx Hor Ht Hnf].
  pose proof (iexec_inv itr si Hx) as Hiv. pose proof (iexec_orderly itr si Hx Hor) as Hov.
  destruct (iv_k _ _ Hiv _ _ _ Hk) as (p&m&Hm&->).
  assert (p = render slash d) as ->.
  { destruct (ov_dom _ _ Hov (render slash d)) as [m0 Hm0]; [eauto|].
    destruct (proj1 (C38_kernel_table itr si _ m0 f Hx Hor) (conj Hm0 Hf)) as (wd0&Hw0&Hk0).
    assert (wd0 = wd) as -> by (by eapply (iv_ino _ _ Hiv)). congruence. }
  apply elem_of_sent in He as (r&Hr&He). apply elem_of_list_singleton in Hr as ->.
  set (r := Raw wd _ cookie c) in *.
  destruct (transform1_cases (i_m si) r) as [Htn|(w&H1&H2&H3)]; [rewrite Htn in He; by destruct He|].
  change (r_wd r) with wd in H2. assert (w = Wd (render slash d) m) as -> by congruence.
  pose proof (transform1_Some (i_m si) r _ H1 H2 H3) as Htr. cbn zeta in Htr. rewrite Htr in He. clear Htr. cbn [fst snd w_path w_mask] in He.
  destruct (joined d c Hdn Hdp Hc) as [Hcn Hj].
  assert ((match r_name r with [] => render slash d | nm => fjoin (render slash d) nm end) = render slash (d ++ [c])) as Hpath.
  { change (r_name r) with c. destruct c; done. }
  destruct (iv_m _ _ Hiv _ _ _ Hm) as [Hkn _].
  assert (ie_path e = render slash (d ++ [c]) ∧ ie_event e ≠ 0 ∧ incl_ev (ie_event e) m) as (Hp&H0&Hin).
  { destruct He as [He|He].
    - destruct (N.eqb_spec (decode m (r_mask r)).1 0) as [|Hn]; [done|]. injection He as <-. split_and!; [exact Hpath|done|eapply C36_only_requested; by left].
    - apply fmap_Some in He as (x&Hx'&->). split_and!; [exact Hpath| |eapply C36_only_requested; by right].
      by apply C36_native in Hx' as [_ ?]. }
  split; [done|]. apply (C17_offered_iff linux linux_ok eq_refl slash tr s E (ie_info e) d c n); try done.
  - by eapply nexec_where_nexec.
  - apply info_reported; try done. apply known_omit. clear - Hin Hkn. intros j Hj. by apply Hkn, Hin.
Qed.

(** The recursive case.  A successful recursive Watch in force makes [n] ask for its events. *)
Lemma in_force_asked tr p n e : in_force linux tr p n e → incl_ev (e .| recursive linux) (asked linux tr p n).
Proof.
  intros (tr1&tr2&->&Hst&Hrm). unfold asked. rewrite foldl_app. cbn [foldl].
  set (g := ask linux _ _). assert (incl_ev (e .| recursive linux) (g p n)) as Hg.
  { subst g. cbn. rewrite decide_True by done. cbn. intros i. rewrite !has_lor. tauto. }
  clearbody g. revert g Hg. induction tr2 as [|[o r] tr2 IH]; intros g Hg; [done|]. cbn [foldl]. apply IH.
  - intros r' Hr'. apply (Hst r'). by right.
  - intros q r' Hr'. apply (Hrm q r'). by right.
  - destruct o as [q isrec m e'|m|ev q]; cbn.
    + destruct r; try done. case_decide as Hd; [|done]. intros i Hi. rewrite !has_lor. left. left. by apply Hg.
    + case_decide as Hd; [|done]. subst m. exfalso. apply (Hst r). by left.
    + case_decide as Hd; [|done]. destruct Hd as [-> Hq]. exfalso. apply (Hrm q r); [by left|done].
Qed.
(** A recursive Watch covers every directory below the watched one, those created
    since included ([fexec]: nobody asked to watch them before they existed): what
    happens to an entry of one of them reaches the channel. *)
Theorem C57_recursive tr D s itr si E a d f c n e g raws i isdir cookie :
  linux_system tr s itr si → fexec linux slash tr D s → in_force linux tr a n e →
  nenv linux slash E → d ∈ D → a `prefix_of` d → dir_watched itr d f → proper c →
  (g, raws) ∈ generics → has raws i → incl_ev g e →
  (∃ r, kernel_reports si f (2 ^ i) isdir cookie c r) ∧
  ∀ r rs, kernel_reports si f (2 ^ i) isdir cookie c r → r ∈ rs →
    ∃ e', e' ∈ sent (i_m si) rs ∧ ie_info e' = EI g (render slash (d ++ [c])) (Some isdir) fTypeUnknown ∧
      (0 < offered E s (ie_info e') (KUser n))%nat.
Proof.
  intros Hsys Hfx Hforce HE HdD Had (Hdn&Hdp&Hf) Hc Hg Hi Hge. destruct (generic_bits g raws Hg) as (Hg0&Hgi&Hgo&Hlt).
  pose proof Hsys as [Hdr Hx Hor Ht Hnf].
  destruct (C20_covered_partial linux linux_ok slash tr D s a n e d Hfx Hforce HdD Had) as (m&Hos&Hem).
  assert (itab itr !! render slash d = Some m) as Hm by (by rewrite (drives_tab _ _ _ Hdr), Hos).
  assert (incl_ev g m) as Hgm by (clear - Hge Hem; bits).
  assert (asks m i) as Ha by (right; eauto). split.
  - by eapply C38_kernel_active.
  - intros r rs Hk Hr. destruct (joined d c Hdn Hdp Hc) as [Hcn Hj].
    destruct (C38_complete itr si rs _ m f _ isdir cookie c r i Hx Hor Hm Hf eq_refl (Hlt i Hi) Ha Hk Hr) as [Hgen _].
    destruct (Hgen g raws Hg Hgm Hi) as (e'&He&Hinf). exists e'. split; [done|].
    assert (ie_info e' = EI g (render slash (d ++ [c])) (Some isdir) fTypeUnknown) as Hie.
    { rewrite Hinf. destruct c; [done|]. by rewrite Hj. }
    split; [done|]. apply (C17_offered_iff linux linux_ok eq_refl slash tr s E (ie_info e') d c n); try done.
    + by eapply nexec_where_nexec.
    + unfold ie_info in Hie. injection Hie as He1 He2 _. apply info_reported; rewrite ?He1; done.
    + right. rewrite Hie. cbn [ei_event]. pose proof (in_force_asked _ _ _ _ Hforce) as Hask.
      destruct (decide (a = d)) as [->|Hne]; [left; clear - Hask Hge; bits|].
      right. exists a. split_and!; [done|done|]. clear - Hask Hge. bits.
Qed.

(** ** Instances *)
(** The calls of the history [tr1] (/verif/rocq/theories/Prop_NonRec.v), the files
    being numbered by their names. *)
Definition fileno (p : str) : positive := Pos.of_nat (foldr (λ c n, nat_of_ascii c + n)%nat 0%nat p).
Definition follow (x : wcall * bool) : ienv * iop * bool :=
  match x with
  | (WWatch p e, r) | (WRewatch p _ e, r) => (IEnv true (Some (fileno p)) id, IWatch p e, r)
  | (WUnwatch p, r) => (IEnv true None id, IUnwatch p, r)
  | (_, r) => (IEnv true None id, IClose, r)
  end.
Definition itr1 : itrace := Eval vm_compute in follow <$> st_log s1.
Definition si1 : ist := runi inew itr1.
Definition plain (x : wcall * bool) : bool := match x.1 with WWatch _ _ | WRewatch _ _ _ | WUnwatch _ => true | _ => false end.
Lemma follow_drives l : forallb plain l = true → drives l (follow <$> l).
Proof.
  induction l as [|[w r] l IH] using rev_ind; [constructor|]. rewrite forallb_app. intros [Hl Hw]%andb_prop.
  cbn in Hw. rewrite andb_true_r in Hw. rewrite fmap_app. cbn. specialize (IH Hl). destruct w; cbn in Hw |- *; try done; by constructor.
Qed.
Lemma system1 : linux_system tr1 s1 itr1 si1.
Proof.
  split.
  - assert (itr1 = follow <$> st_log s1) as -> by (by vm_compute). apply follow_drives. by vm_compute.
  - apply iexec_run; [repeat constructor; by intros l|].
    intros k x Hk. do 8 (destruct k as [|k]; [first [done|injection Hk as <-; by vm_compute]|]). done.
  - apply orderly_check. intros k x Hk. do 8 (destruct k as [|k]; [first [done|injection Hk as <-; by vm_compute]|]). done.
  - apply ops1_where.
  - apply tr1_no_failure.
Qed.
(** A file is created in /a/b, and the record of it read: channel 1, which watches /a
    recursively, and nobody else is told. *)
Example C57_ex :
  linux_system tr1 s1 itr1 si1 ∧ fexec linux slash tr1 D0 s1 ∧ in_force linux tr1 (pth "a") 1 (Create linux .| Write linux) ∧
  dir_watched itr1 (pth "a/b") (fileno (b "/a/b")) ∧ proper (b "f") ∧ asked linux tr1 (pth "a/b") 2 = Write linux ∧
  kernel_reports si1 (fileno (b "/a/b")) InCreate false 0 (b "f") (Raw 2 InCreate 0 (b "f")) ∧
  (ie_info <$> sent (i_m si1) [Raw 2 InCreate 0 (b "f")]) = [EI ICreate (b "/a/b/f") (Some false) fTypeUnknown] ∧
  (nr_dispatch E0 (st_tree s1) (EI ICreate (b "/a/b/f") (Some false) fTypeUnknown)).1 = [KUser 1] ∧
  (ie_info <$> sent (i_m si1) [Raw 2 InDeleteSelf 0 []]) = [EI IRemove (b "/a/b") (Some false) fTypeUnknown] ∧
  (ie_info <$> sent (i_m si1) [Raw 2 InModify 0 (b "f")]) = [EI IWrite (b "/a/b/f") (Some false) fTypeUnknown] ∧
  (nr_dispatch E0 (st_tree s1) (EI IWrite (b "/a/b/f") (Some false) fTypeUnknown)).1 = [KUser 1; KUser 2].
Proof.
  split_and!; [apply system1|apply ops1_fexec|apply tr1_in_force| | |by vm_compute| |by vm_compute..].
  - split_and!; [done| |by vm_compute]. apply (bool_decide_unpack _). by vm_compute.
  - apply (bool_decide_unpack _). by vm_compute.
  - eexists 2%Z, _. split_and!; [by vm_compute|by vm_compute|done].
Qed.

Print Assumptions C57_delivered.
Print Assumptions C57_delivered_native.
Print Assumptions C57_only_registered.
Print Assumptions C57_delivered_self.
Print Assumptions C57_recursive.
