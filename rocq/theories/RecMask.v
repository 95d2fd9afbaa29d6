(** * RecMask: which registrations a report is given to *)
From Verif Require Import Base Event Watchpoint WatchpointFacts Paths PathsFacts Loop LoopFacts
  Node NodeFacts SpecTree WalkFacts RootFacts NonRec NonRecWp Rec SpecNonRec NonRecDisp SpecOS SpecRec RecFacts RecReg RecStop RecDisp RecStep.
Local Open Scope N_scope.

Section mask.
Context (P : platform) (HP : platform_ok P) (HR : windows P = true → P = readdcw).
Context (sepc : ascii) (w : bool) (isvol : str → Prop).
Notation nameof := (nameof sepc w).
Notation renv := (renv P sepc w isvol).
Notation rpath := (rpath sepc w isvol).
Notation rinv := (rinv P sepc w isvol).
Notation needs := (needs P).
Notation rreported := (rreported P sepc w isvol).

Lemma winb : windows P = true ∨ windows P = false.
Proof. clear. destruct (windows P); auto. Qed.
Lemma rec_noaction : windows P = true → disj_ev (recursive P) fileActionAll.
Proof. intros Hw. rewrite (HR Hw). apply land_zero_disj. by vm_compute. Qed.
Lemma native_noomit x : windows P = true → x ∈ [FileNotifyChangeFileName; FileNotifyChangeDirName; fileNotifyChangeModified] →
  x ≠ 0 ∧ disj_ev x (omit P) ∧ disj_ev x fileActionAll.
Proof.
  intros Hw Hx. rewrite (HR Hw). rewrite !elem_of_cons, elem_of_nil in Hx.
  destruct Hx as [->|[->|[->|[]]]]; (split_and!; [done|apply land_zero_disj; by vm_compute..]).
Qed.
Definition native (ei : event_info) : N := match ei_ftype ei with
    | fTypeFile => FileNotifyChangeFileName
    | fTypeDirectory => FileNotifyChangeDirName
    | fTypeUnknown => fileNotifyChangeModified
    end.
Lemma native_elem ei : native ei ∈ [FileNotifyChangeFileName; FileNotifyChangeDirName; fileNotifyChangeModified].
Proof. rewrite !elem_of_cons. unfold native. destruct (ei_ftype ei); auto. Qed.

Lemma mask_gen ei x : (windows P = true → disj_ev x fileActionAll) → eventmask P ei x = needs ei .| x.
Proof.
  intros Hx. unfold eventmask, SpecRec.needs. destruct winb as [Hw|Hw]; rewrite Hw; [|done]. specialize (Hx Hw). cbn [andb].
  fold (native ei).
  assert ((ei_event ei .| x) .& fileActionAll = ei_event ei .& fileActionAll) as Hz by (clear - Hx; bits).
  rewrite Hz. destruct (negb _); [|done].
  destruct (native_noomit (native ei) Hw (native_elem ei)) as (_&_&Ha).
  transitivity (((ei_event ei .| x) .| native ei) .&^ fileActionAll).
  { unfold native. by destruct (ei_ftype ei). }
  generalize dependent (native ei). intros y Ha. clear - Hx Ha. generalize dependent fileActionAll. intros z Hx Ha. bits.
Qed.
Lemma mask_0 ei : eventmask P ei 0 = needs ei.
Proof. rewrite mask_gen, N.lor_0_r; [done|]. intros _. clear. bits. Qed.
Lemma mask_rec ei : eventmask P ei (recursive P) = needs ei .| recursive P.
Proof. apply mask_gen, rec_noaction. Qed.
Lemma needs_ok ei : ei_event ei ≠ 0 → disj_ev (ei_event ei) (omit P) → needs ei ≠ 0 ∧ disj_ev (needs ei) (omit P).
Proof.
  intros He Ho. unfold SpecRec.needs. destruct winb as [Hw|Hw]; rewrite Hw; [|done]. cbn [andb]. fold (native ei).
  destruct (negb _); [|done]. destruct (native_noomit (native ei) Hw (native_elem ei)) as (Hn&Hd&_).
  generalize dependent (native ei). intros y Hn Hd. split.
  - intros Hz. apply Hn. clear - Hz. bits.
  - clear - Ho Hd. bits.
Qed.
Lemma needs_norec ei : disj_ev (ei_event ei) (internal P) → disj_ev (needs ei) (recursive P).
Proof.
  intros Hint. assert (disj_ev (ei_event ei) (recursive P)) as Hr by (clear - Hint; unfold internal in Hint; bits).
  unfold SpecRec.needs. destruct winb as [Hw|Hw]; rewrite Hw; [|done]. cbn [andb]. fold (native ei).
  destruct (negb _); [|done].
  assert (disj_ev (native ei) (recursive P)) as Hd.
  { rewrite (HR Hw). unfold native. destruct (ei_ftype ei); apply land_zero_disj; by vm_compute. }
  generalize dependent (native ei). intros y Hd. clear - Hr Hd. bits.
Qed.
(** A registration for no event matches nothing. *)
Lemma bare_rec_no_match ei x g : needs ei ≠ 0 → disj_ev (needs ei) (recursive P) → disj_ev (needs ei .| x) (omit P) →
  incl_ev g (recursive P) → matches P g (needs ei .| x) = true → False.
Proof.
  intros Hn Hd Ho Hg Hm. apply nonzero_bit in Hn as [i Hi].
  assert (¬ incl_ev (needs ei .| x) g) as Hno.
  { intros K. apply (Hd i Hi). apply Hg, K, has_lor. by left. }
  destruct winb as [Hw|Hw].
  - apply matches_win in Hm as [_ [Hm|(j&H1&H2&_)]]; [by apply Hno| |done|done].
    assert (disj_ev (recursive P) fileNotifyChangeModified) as Hz.
    { rewrite (HR Hw). apply land_zero_disj. by vm_compute. }
    apply (Hz j); [by apply Hg|done].
  - apply matches_noomit in Hm as [_ Hm]; [by apply Hno|done|done].
Qed.
(** Matching, when the report is not about a modification. *)
Lemma matches_plain x m : disj_ev m (omit P) → disj_ev x (omit P) →
  (windows P = true → disj_ev m fileNotifyChangeModified) → matches P x m = true ↔ incl_ev m x.
Proof.
  intros Hm Hx Hmod. destruct (windows P) eqn:Hw.
  - rewrite matches_win by done. specialize (Hmod eq_refl). split; [|by auto].
    intros [_ [H|(i&_&H2&H3)]]; [done|]. exfalso. by eapply Hmod.
  - rewrite matches_noomit by done. naive_solver.
Qed.
Lemma hit_gets t n m q : rinv t → [] ∉ q → m ≠ 0 → disj_ev m (omit P) →
  (windows P = true → disj_ev m fileNotifyChangeModified) →
  hit P t n m q = gets (rgs t) n m q.
Proof.
  intros Ht Hq Hz Hm Hmod. unfold hit, gets. rewrite rgs_plain by done.
  assert (disj_ev (rureg t q n) (omit P)) as Hx by (apply wpd_get_omit; by eapply rinv_wp).
  pose proof (matches_plain _ m Hm Hx Hmod) as Hiff.
  destruct (decide (m .& rureg t q n = m)) as [Hd|Hd].
  - assert (matches P (rureg t q n) m = true) as ->; [|done]. apply Hiff. rewrite <-Hd. clear. bits.
  - destruct (matches P (rureg t q n) m) eqn:Em; [|done]. exfalso. apply Hd.
    destruct Hiff as [Hi _]. specialize (Hi eq_refl). clear - Hi. bits.
Qed.
Lemma rec_offered_hits E s ei d c n :
  renv E → rinv (st_tree s) → rreported ei d c →
  rec_offered E s ei (KUser n) =
    (nsum ((λ k, hit P (st_tree s) n (needs ei .| recursive P) (take k d)) <$> seq 0 (length d)) +
     hit P (st_tree s) n (needs ei) d + hit P (st_tree s) n (needs ei) (d ++ [c]))%nat ∧
  rec_offered E s ei KRec = 0%nat ∧ rec_offered E s ei KNil = 0%nat.
Proof.
  intros HE Ht (He&Hint&Hd&Hc&Hcc&Hp).
  assert (disj_ev (ei_event ei) (omit P)) as Ho by (clear - Hint; unfold internal in Hint; bits).
  destruct (needs_ok ei He Ho) as [Hn1 Hn2].
  assert (disj_ev (needs ei .| recursive P) (omit P)) as Hr.
  { pose proof (d_re_om P HP) as Hz. clear - Hz Hn2. bits. }
  destruct (rec_dispatch_spec P HP sepc w isvol E (st_tree s) ei d c n HE Ht Hd Hc Hcc Hp) as (H1&H2&H3).
  - by rewrite mask_0.
  - by rewrite mask_0.
  - rewrite mask_rec. intros Hz. apply Hn1. clear - Hz. bits.
  - by rewrite mask_rec.
  - rewrite mask_0, mask_rec in H1. split; [exact H1|].
    assert (∀ k, k ∉ rec_dispatch E (st_tree s) ei → rec_offered E s ei k = 0%nat) as Hno.
    { intros k Hk. unfold rec_offered. revert Hk. generalize (rec_dispatch E (st_tree s) ei). intros l.
      induction l as [|x l IH]; [done|]. intros Hk. rewrite filter_cons, decide_False.
      - apply IH. intros K. apply Hk. by right.
      - intros ->. apply Hk. left. }
    split; by apply Hno.
Qed.
Lemma nsum_ext {A} (f g : A → nat) l : (∀ x, x ∈ l → f x = g x) → nsum (f <$> l) = nsum (g <$> l).
Proof.
  induction l as [|x l IH]; intros H; [done|]. rewrite !fmap_cons. unfold nsum in *. simpl. rewrite H by left.
  rewrite IH; [done|]. intros y Hy. apply H. by right.
Qed.
Lemma rec_offered_deliveries E s ei d c n :
  renv E → rinv (st_tree s) → rreported ei d c → unmodified P ei →
  rec_offered E s ei (KUser n) = deliveries P (rgs (st_tree s)) n (needs ei) d c.
Proof.
  intros HE Ht Hrep Hmod. destruct (rec_offered_hits E s ei d c n HE Ht Hrep) as [-> _].
  destruct Hrep as (He&Hint&Hd&Hc&Hcc&Hp).
  assert (disj_ev (ei_event ei) (omit P)) as Ho by (clear - Hint; unfold internal in Hint; bits).
  destruct (needs_ok ei He Ho) as [Hn1 Hn2].
  assert ([] ∉ d) as Hdp by apply Hd.
  assert (windows P = true → disj_ev (needs ei .| recursive P) fileNotifyChangeModified) as Hmr.
  { intros Hw. specialize (Hmod Hw). assert (disj_ev (recursive P) fileNotifyChangeModified) as Hz.
    { rewrite (HR Hw). apply land_zero_disj. by vm_compute. }
    revert Hmod Hz. generalize fileNotifyChangeModified. clear. intros. bits. }
  unfold deliveries. change (foldr Nat.add 0%nat) with nsum. f_equal; [f_equal|].
  - apply nsum_ext. intros k _. apply hit_gets; [done|by apply take_plain| | |done].
    + intros Hz. apply Hn1. clear - Hz. bits.
    + pose proof (d_re_om P HP) as Hz. clear - Hz Hn2. bits.
  - by apply hit_gets.
  - apply hit_gets; try done. intros [?|K%elem_of_list_singleton]%elem_of_app; done.
Qed.
End mask.
