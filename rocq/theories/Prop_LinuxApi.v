(** * Property theorem C70: Linux, from the arguments of Watch and the kernel's records to the channels *)
From Verif Require Import Base Event Watchpoint WatchpointFacts Paths PathsFacts Loop LoopFacts
  Node NodeFacts SpecTree NonRec SpecNonRec SpecNonRecOS SpecOS NonRecCov NonRecRun Rec SpecRec Prop_Basics Prop_NonRec
  Clean SpecClean CleanFacts Prop_Clean Api SpecApi ApiFacts Prop_Api Inotify SpecInotify InotifyFacts InotifyTab Prop_Inotify Prop_Linux SpecLinuxApi NrApiFacts.
Local Open Scope N_scope.

Notation ltrans := (trans linux).
Section sys.
Context (tr : atrace) (D : gset path) (s : st) (itr : itrace) (si : ist) (Hsys : linux_api tr D s itr si).
Lemma api_system : ∃ trs, Forall2 ltrans tr trs ∧ fexec linux slash (concat trs) D s ∧ linux_system (concat trs) s itr si.
Proof.
  destruct Hsys as [Hx Hnr Hdr Hi Ho]. destruct (lexec_fexec linux _ _ _ Hx) as (trs&Ht&Hf). exists trs. split_and!; try done.
  split; try done; [by apply (fexec_where linux slash) in Hf|by eapply trans_no_failure].
Qed.
Lemma dir_proper d f : dir_watched itr d f → d ≠ [] ∧ [] ∉ d.
Proof. intros (Hd&Hp&_). split; [done|]. intros H. rewrite Forall_forall in Hp. by destruct (Hp [] H). Qed.

(** Something happens to the entry [c] of directory [d].  A channel called Watch with
    the directory's path, relative or absolute, through links or not, and named a
    generic event that stands for it; or with the path of a directory at or above it
    followed by "...".  Then the kernel has something to report, and whatever batch the
    record is read in, an event with that name and the joined path is offered to the
    channel. *)
Theorem C70_delivered E d f c n g raws i isdir cookie :
  nenv linux slash E → dir_watched itr d f → proper c → (g, raws) ∈ generics → has raws i →
  subscribed_all linux tr n d g ∨ (d ∈ D ∧ ∃ a, a `prefix_of` d ∧ watches_below tr n a g) →
  (∃ r, kernel_reports si f (2 ^ i) isdir cookie c r) ∧
  ∀ r rs, kernel_reports si f (2 ^ i) isdir cookie c r → r ∈ rs →
    ∃ e, e ∈ sent (i_m si) rs ∧ ie_info e = EI g (render slash (d ++ [c])) (Some isdir) fTypeUnknown ∧
      (0 < offered E s (ie_info e) (KUser n))%nat.
Proof.
  intros HE Hd Hc Hg Hi Hsub. destruct api_system as (trs&Ht&Hf&Hls). destruct (generic_bits g raws Hg) as (Hg0&Hgi&_&_).
  destruct Hsub as [Hsub|(HdD&a&Had&Hb)].
  - eapply C57_delivered; try done. destruct (dir_proper d f Hd). by apply (all_sub linux tr trs).
  - destruct (below_force linux tr trs n a g) as (e&Hfo&He); try done.
    + by eapply lexec_user, Hsys.
    + intros fs cwd p o l r. by eapply lexec_root, Hsys.
    + by eapply C57_recursive.
Qed.
(** The same for inotify's own events. *)
Theorem C70_native E d f c n i isdir cookie :
  nenv linux slash E → dir_watched itr d f → proper c → i < 12 → subscribed linux tr n d i →
  (∃ r, kernel_reports si f (2 ^ i) isdir cookie c r) ∧
  ∀ r rs, kernel_reports si f (2 ^ i) isdir cookie c r → r ∈ rs →
    ∃ e, e ∈ sent (i_m si) rs ∧ ie_info e = EI (2 ^ i) (render slash (d ++ [c])) (Some isdir) fTypeUnknown ∧
      (0 < offered E s (ie_info e) (KUser n))%nat.
Proof.
  intros HE Hd Hc Hi Hsub. destruct api_system as (trs&Ht&Hf&Hls). eapply C57_delivered_native; try done.
  destruct (dir_proper d f Hd). apply (asked_sub linux tr trs); try done. by left.
Qed.
(** What happens to a watched file itself. *)
Theorem C70_self E d c f n g raws i isdir cookie :
  nenv linux slash E → d ≠ [] → dir_watched itr (d ++ [c]) f → (g, raws) ∈ generics → has raws i →
  subscribed_all linux tr n (d ++ [c]) g →
  (∃ r, kernel_reports si f (2 ^ i) isdir cookie [] r) ∧
  ∀ r rs, kernel_reports si f (2 ^ i) isdir cookie [] r → r ∈ rs →
    ∃ e, e ∈ sent (i_m si) rs ∧ ie_info e = EI g (render slash (d ++ [c])) (Some isdir) fTypeUnknown ∧
      (0 < offered E s (ie_info e) (KUser n))%nat.
Proof.
  intros HE Hd0 Hd Hg Hi Hsub. destruct api_system as (trs&Ht&Hf&Hls). destruct (generic_bits g raws Hg) as (Hg0&Hgi&_&_).
  eapply C57_delivered_self; try done. destruct (dir_proper _ _ Hd). by apply (all_sub linux tr trs).
Qed.
Lemma sent_user rs e : e ∈ sent (i_m si) rs → ie_event e ≠ 0 ∧ disj_ev (ie_event e) (internal linux).
Proof.
  destruct Hsys as [_ _ _ Hx _]. pose proof (iexec_inv itr si Hx) as Hiv.
  intros (r&Hr&He)%elem_of_sent. destruct (transform1_cases (i_m si) r) as [Htn|(w&H1&H2&H3)]; [rewrite Htn in He; by destruct He|].
  destruct w as [p m]. destruct (iv_m _ _ Hiv _ _ _ H2) as [Hkn _].
  pose proof (transform1_Some (i_m si) r _ H1 H2 H3) as Htr. cbn zeta in Htr. rewrite Htr in He. clear Htr. cbn [fst snd w_path w_mask] in He.
  assert (ie_event e ≠ 0 ∧ incl_ev (ie_event e) m) as (H0&Hin).
  { destruct He as [He|He].
    - destruct (N.eqb_spec (decode m (r_mask r)).1 0) as [|Hn]; [done|]. injection He as <-. split_and!; [done|eapply C36_only_requested; by left].
    - apply fmap_Some in He as (x&Hx'&->). split_and!; [|eapply C36_only_requested; by right].
      by apply C36_native in Hx' as [_ ?]. }
  split; [done|]. intros j Hj1 Hj2. specialize (Hkn j (Hin j Hj1)).
  assert ((All linux .| 0xfff) .& internal linux = 0) as Hz by (by vm_compute).
  eapply (has_0 j). rewrite <-Hz. apply has_land. split; assumption.
Qed.
(** Whatever the kernel reports about an entry of a watched directory, every event made
    of it carries the entry's path and is offered exactly to the channels that passed
    Watch a path of the entry or of the directory, or "..." on a path of a directory
    above, naming the event. *)
Theorem C70_only E d f c n ev isdir cookie r e :
  nenv linux slash E → dir_watched itr d f → proper c →
  kernel_reports si f ev isdir cookie c r → e ∈ sent (i_m si) [r] →
  ie_path e = render slash (d ++ [c]) ∧
  ((0 < offered E s (ie_info e) (KUser n))%nat ↔ reaches linux tr n (ie_event e) d c).
Proof.
  intros HE Hd Hc Hk He. destruct api_system as (trs&Ht&Hf&Hls). destruct (sent_user _ _ He) as [H0 Hint].
  destruct (C57_only_registered _ _ _ _ E d f c n ev isdir cookie r e Hls HE Hd Hc Hk He) as [Hp Hi]. split; [done|].
  rewrite Hi, <-deliveries_pos. destruct (dir_proper d f Hd). destruct Hd as (Hdn&Hdp&_).
  apply (reaches_deliveries linux linux_ok tr trs); try done; [by eapply lexec_user, Hsys|by apply proper_upath|by destruct Hc].
Qed.
End sys.

(** ** Instance *)
(** The calls of Prop_Api.v; then the directory /d/e/z appears.  Channel 1 had asked, in
    directory /d, for everything below the link "abs", which leads to /d/e. *)
Definition dirs2 : gset path := dirs1 ∪ {[ [b "d"; b "e"; b "z"] ]}.
Definition EL2 : env := mkenv linux dirs2 allok.
Lemma dirs2_ok : dirs_ok slash dirs2.
Proof. apply dirs_okb_ok. by vm_compute. Qed.
Definition sL : st := (arun nr_api EL init_st (calls fs1 linux)).2.
Definition newdir : acall := AEvent (Create linux) [b "d"; b "e"; b "z"].
Definition sL2 : st := (astep nr_api EL2 sL newdir).1.
Definition atrL : atrace := atr fs1 linux ++ [(newdir, ORet ROk)].
Definition itrL : itrace := Eval vm_compute in follow <$> st_log sL2.
Definition siL : ist := runi inew itrL.
Lemma clean_denotes fs cwd p q isrec : fs_ok fs → root_links_ok fs → (∀ w, cwd = Some w → isabs w = true) →
  q ≠ [] → [] ∉ q → Forall (comp_ok slash) q → cleanpath fs cwd p = inl (topath q, isrec) → denotes fs cwd p isrec q.
Proof.
  intros Hf Hl Hw Hq Hq' Hc Hp. destruct (cleanpath_denotes _ _ _ _ _ Hf Hl Hw Hp) as (ph&Hph&Hd).
  assert (real fs ph) as Hre by (by destruct Hd as (?&?&?&?&?&?&?)).
  destruct (real_upath fs ph Hre) as (_&Hu&_). rewrite topath_render in Hph by done.
  assert (q = nodeof ph) as ->. { apply (render_inj slash); [done|done|]. rewrite Hph. by destruct ph. }
  destruct ph as [|c ph]; [|done]. destruct Hq'. left.
Qed.
Lemma fs1_den1 : denotes fs1 (Some (b "/d")) (b "abs/...") true [b "d"; b "e"].
Proof.
  apply clean_denotes; [apply fs1_ok|apply fs1_ok|by intros w [= <-]|done|apply (bool_decide_unpack _); by vm_compute|apply (bool_decide_unpack _); by vm_compute|by vm_compute].
Qed.
Lemma fs1_den2 : denotes fs1 (Some (b "/d")) (b "../f") false [b "f"].
Proof.
  apply clean_denotes; [apply fs1_ok|apply fs1_ok|by intros w [= <-]|done|apply (bool_decide_unpack _); by vm_compute|apply (bool_decide_unpack _); by vm_compute|by vm_compute].
Qed.
Lemma arun_lexec D E l : ∀ tr s,
  nenv linux slash E → fs_env slash D E → Forall (λ o, (∀ ev p, o ≠ AEvent ev p) ∧ (¬ vain o → acall_ok linux o ∧ call_good E o)) l →
  lexec tr D s → lexec (tr ++ (arun nr_api E s l).1) D (arun nr_api E s l).2.
Proof.
  induction l as [|o l IH]; intros tr s HE HF Hok Hx; cbn [arun]; [by rewrite app_nil_r|].
  apply Forall_cons_1 in Hok as [[Hne Ho] Hok]. destruct (astep nr_api E s o) as [s' r] eqn:Hs.
  specialize (IH (tr ++ [(o, r)]) s' HE HF Hok). rewrite <-app_assoc in IH.
  destruct (arun nr_api E s' l) as [tr' s'']. apply IH. eapply lx_call; try done. intros Hv. destruct (Ho Hv). by split_and!.
Qed.
Lemma calls_good : Forall (λ o, (∀ ev p, o ≠ AEvent ev p) ∧ (¬ vain o → acall_ok linux o ∧ call_good EL o)) (calls fs1 linux).
Proof.
  pose proof (calls_ok linux fs1 (proj1 fs1_ok) (proj2 fs1_ok) ltac:(by vm_compute)) as Hok. revert Hok. unfold calls.
  intros (Ho1&(Ho2&(_&(_&(Ho5&_)%Forall_cons_1)%Forall_cons_1)%Forall_cons_1)%Forall_cons_1)%Forall_cons_1.
  assert (∀ e l, e ≠ 0 → ∃ x, x ∈ (e :: l) ∧ x ≠ 0) as Hev by (intros e l He; exists e; split; [left|done]).
  apply Forall_cons; split; [|apply Forall_cons; split; [|apply Forall_cons; split; [|apply Forall_cons; split; [|apply Forall_cons; split; [|by apply Forall_nil]]]]].
  all: split; [done|]; intros Hv.
  - split; [exact Ho1|]. split; [by apply Hev|]. intros _. split; [done|]. intros Hd. by destruct (denotes_det _ _ _ _ _ _ _ Hd fs1_den1).
  - split; [exact Ho2|]. split; [by apply Hev|]. intros [x Hx]. exfalso. destruct fs1_den2 as (_&_&_&Hn&_). by apply (Hn eq_refl x).
  - by destruct Hv.
  - by destruct Hv.
  - split; [exact Ho5|]. split; [by apply Hev|]. intros [x Hx]. exfalso. apply (f_equal reverse) in Hx. rewrite reverse_app in Hx. by vm_compute in Hx.
Qed.
Lemma atr_elem fs' fs cwd x n events r : (AWatch fs cwd x (Some n) events, ORet r) ∈ atr fs' linux → events ≠ [] →
  fs = fs' ∧ cwd = Some (b "/d") ∧ (x = b "abs/..." ∨ x = b "../f").
Proof.
  unfold atr, calls, outcomes1. cbn [zip zip_with]. rewrite !elem_of_cons, elem_of_nil. intros H Hne.
  destruct H as [H|[H|[H|[H|[H|[]]]]]]; try done; injection H as -> -> -> _ H _; [by auto|by auto|done].
Qed.
Lemma untouched : ¬ atouched (atr fs1 linux) [b "d"; b "e"; b "z"].
Proof.
  intros (tr1&fs&cwd&x&n&events&r&tr2&isrec&q&Heq&Hne&Hd&[z Hz]&_).
  destruct (atr_elem fs1 fs cwd x n events r) as (->&->&[-> | ->]); [rewrite Heq; apply elem_of_app; right; left|done|..].
  - destruct (denotes_det _ _ _ _ _ _ _ Hd fs1_den1) as [_ H]. by rewrite H in Hz.
  - destruct (denotes_det _ _ _ _ _ _ _ Hd fs1_den2) as [_ H]. by rewrite H in Hz.
Qed.
Lemma lexecL : lexec atrL dirs2 sL2.
Proof.
  assert (lexec (atr fs1 linux) dirs1 sL) as H.
  { rewrite <-fs1_arun. apply (arun_lexec dirs1 EL (calls fs1 linux) [] init_st); [apply mkenv_nenv, dirs1_ok|apply mkenv_fs, dirs1_ok|apply calls_good|].
    constructor. apply dirs1_ok. }
  assert (dirs1 ⊆ dirs2) as Hsub by (apply union_subseteq_l).
  apply (lx_mkdir linux _ dirs1 dirs2 [b "d"; b "e"; b "z"] sL EL2 sL2 (ORet ROk)).
  - exact H.
  - apply mkenv_nenv, dirs2_ok.
  - done.
  - apply dirs2_ok.
  - apply mkenv_fs, dirs2_ok.
  - apply elem_of_union_r. by apply elem_of_singleton.
  - exact Hsub.
  - intros q [Hq|Hq%elem_of_singleton]%elem_of_union Hq'; [done|]. by subst.
  - apply (bool_decide_unpack _). by vm_compute.
  - apply untouched.
  - exact eq_refl.
Qed.
Lemma systemL : linux_api atrL dirs2 sL2 itrL siL.
Proof.
  split.
  - apply lexecL.
  - apply Forall_app. split; [apply atr_not_refused|]. constructor; [|done]. done.
  - assert (itrL = follow <$> st_log sL2) as -> by (by vm_compute). apply follow_drives. by vm_compute.
  - apply iexec_run; [repeat constructor; by intros l|].
    intros k x Hk. do 5 (destruct k as [|k]; [first [done|injection Hk as <-; by vm_compute]|]). done.
  - apply orderly_check. intros k x Hk. do 5 (destruct k as [|k]; [first [done|injection Hk as <-; by vm_compute]|]). done.
Qed.
(** A file y is written in the new directory: the kernel reports it, channel 1 and
    nobody else is told. *)
Example C70_hyps :
  linux_api atrL dirs2 sL2 itrL siL ∧ nenv linux slash EL2 ∧
  dir_watched itrL [b "d"; b "e"; b "z"] (fileno (b "/d/e/z")) ∧ proper (b "y") ∧ (IWrite, InModify) ∈ generics ∧
  [b "d"; b "e"; b "z"] ∈ dirs2 ∧ [b "d"; b "e"] `prefix_of` [b "d"; b "e"; b "z"] ∧ watches_below atrL 1 [b "d"; b "e"] IWrite ∧
  dir_watched itrL [b "d"; b "e"] (fileno (b "/d/e")) ∧ subscribed_all linux atrL 1 [b "d"; b "e"] IWrite ∧
  (ie_info <$> sent (i_m siL) [Raw 4 InModify 0 (b "y")]) = [EI IWrite (b "/d/e/z/y") (Some false) fTypeUnknown] ∧
  (nr_dispatch EL2 (st_tree sL2) (EI IWrite (b "/d/e/z/y") (Some false) fTypeUnknown)).1 = [KUser 1].
Proof.
  assert (∀ j, has IWrite j → ∃ e, e ∈ [Create linux; Write linux] ∧ has e j) as Hw.
  { intros j Hj. exists (Write linux). split; [right; left|exact Hj]. }
  assert (kept linux (drop 1 atrL) 1 [b "d"; b "e"]) as Hk.
  { unfold atrL, atr, calls, outcomes1. cbn [zip zip_with app drop]. generalize fs1. intros fs. split.
    - intros r. rewrite !elem_of_cons, elem_of_nil. intros H. by destruct H as [H|[H|[H|[H|[H|[]]]]]].
    - intros p r. rewrite !elem_of_cons, elem_of_nil. intros H. by destruct H as [H|[H|[H|[H|[H|[]]]]]]. }
  split_and!; [apply systemL|apply mkenv_nenv, dirs2_ok| | | |apply (bool_decide_unpack _); by vm_compute|by exists [b "z"]| | | |by vm_compute..].
  - split_and!; [done| |by vm_compute]. apply (bool_decide_unpack _). by vm_compute.
  - apply (bool_decide_unpack _). by vm_compute.
  - apply (bool_decide_unpack _). by vm_compute.
  - exists [], (drop 1 atrL), fs1, (Some (b "/d")), (b "abs/..."), [Create linux; Write linux]. split_and!; [done|apply fs1_den1|done|done].
  - split_and!; [done| |by vm_compute]. apply (bool_decide_unpack _). by vm_compute.
  - intros j Hj. exists [], (drop 1 atrL), fs1, (Some (b "/d")), (b "abs/..."), true, [Create linux; Write linux]. split_and!; [done|apply fs1_den1|by apply Hw|done].
Qed.

Print Assumptions C70_delivered.
Print Assumptions C70_native.
Print Assumptions C70_self.
Print Assumptions C70_only.
Print Assumptions C70_hyps.
