(** * NonRecCov: recursive watches cover the directories of the filesystem *)
From Verif Require Import Base Event Watchpoint WatchpointFacts Paths PathsFacts Loop LoopFacts
  Node NodeFacts SpecTree WalkFacts RootFacts NonRec NonRecWp SpecNonRec SpecNonRecOS SpecOS
  NonRecFacts NonRecOps NonRecReg NonRecStep NonRecOS.
Local Open Scope N_scope.

Section cov.
Context (P : platform) (HP : platform_ok P) (sepc : ascii).
Notation render := (render sepc).
Notation nenv := (nenv P sepc).
Notation wp_ok := (wp_ok P).
Notation tinv := (tinv P sepc).
Notation recx := (recx P).
Notation nop_ok := (nop_ok P sepc).
Notation nstep := (nstep sepc).
Notation dirs_ok := (dirs_ok sepc).
Notation fs_env := (fs_env sepc).
Notation gpath := (gpath sepc).

Definition rec_at (s : st) (p : path) : option N := wp_at (st_tree s) p !! KRec.
Definition isdir (de : dirent) : bool := de_dir de && negb (de_symlink de).

Lemma NoDup_names (ents : list dirent) :
  NoDup (de_name <$> ents) → NoDup (de_name <$> filter (λ de, isdir de = true) ents).
Proof.
  induction ents as [|de ents IH]; [done|]. rewrite fmap_cons, NoDup_cons, filter_cons. intros [H1 H2].
  destruct (decide (isdir de = true)); [|by apply IH]. rewrite fmap_cons, NoDup_cons. split; [|by apply IH].
  intros (de'&Hd&[_ Hin]%elem_of_list_filter)%elem_of_list_fmap. apply H1. apply elem_of_list_fmap. by exists de'.
Qed.
Lemma adddir_children_snd E t h ents :
  nenv E → tinv t → is_Some (t !! h) → [] ∉ h →
  (adddir_children E t h ents).2 = (λ de, h ++ [de_name de]) <$> filter (λ de, isdir de = true) ents.
Proof.
  intros HE Ht Hh Hn. unfold adddir_children.
  assert (∀ t1 l, name_at t1 h = name_at t h →
    (foldl (λ '(t, l) de, if de_dir de && negb (de_symlink de) then
      let dir := name_at t h in let name := joinpath (e_sep E) dir (de_name de) in
      let '(t, q) := addchild t h name (drop (length dir + 1) name) in (t, l ++ [q]) else (t, l)) (t1, l) ents).2
    = l ++ ((λ de, h ++ [de_name de]) <$> filter (λ de, isdir de = true) ents)) as Hgen.
  2:{ by rewrite Hgen. }
  induction ents as [|de ents IH]; intros t1 l Hnm; [by rewrite app_nil_r|].
  cbn [foldl]. rewrite filter_cons. change (de_dir de && negb (de_symlink de)) with (isdir de).
  destruct (isdir de) eqn:Ed.
  - rewrite decide_True by done. cbn zeta. rewrite Hnm, (tinv_name P sepc t h Ht Hn Hh), (ne_sep _ _ _ HE).
    destruct (joinpath_good P HP sepc E HE h (de_name de) Hn) as [-> ->].
    rewrite (surjective_pairing (addchild t1 h (render (h ++ [de_name de])) (de_name de))), addchild_snd.
    rewrite (ne_sep _ _ _ HE) in IH. rewrite IH; [by rewrite <-app_assoc|].
    unfold name_at in *. rewrite lookup_addchild. destruct (t1 !! h) as [nd|] eqn:Et1; [done|].
    rewrite decide_False; [done|]. intros Hx. apply (f_equal length) in Hx. rewrite app_length in Hx. simpl in Hx. lia.
  - rewrite decide_False by done. by apply IH.
Qed.

(** One iteration of AddDir. *)
Lemma adddir_step_eff E e s x s2 res :
  nenv E → u32 e → incl_ev (recursive P) e → tinv (st_tree s) → is_Some (st_tree s !! x) → [] ∉ x →
  adddir_step E (recFunc E e) s x = (s2, res) →
  tinv (st_tree s2) ∧ (∀ q, is_Some (st_tree s !! q) → is_Some (st_tree s2 !! q)) ∧
  (∀ q, q ≠ x → wp_at (st_tree s2) q = wp_at (st_tree s) q) ∧
  rec_at s2 x = Some (wget (wp_at (st_tree s) x) KRec .| recx e) ∧
  ∃ i, match e_readdir E i (render x) with
    | None => res = Abort ∧ ∀ q, is_Some (st_tree s2 !! q) → is_Some (st_tree s !! q)
    | Some ents => res = Push (reverse ((λ de, x ++ [de_name de]) <$> filter (λ de, isdir de = true) ents)) ∧
        (∀ de, de ∈ ents → isdir de = true → is_Some (st_tree s2 !! (x ++ [de_name de]))) ∧
        ∀ q, is_Some (st_tree s2 !! q) → is_Some (st_tree s !! q) ∨
          ∃ de, de ∈ ents ∧ de_dir de = true ∧ de_symlink de = false ∧ q = x ++ [de_name de]
    end.
Proof.
  intros HE H32 Hrec Ht Hx Hn Hs. unfold adddir_step in Hs.
  pose proof (recFunc_covers P sepc E e s x HE Ht Hx) as Hcv.
  pose proof (recFunc_grow P sepc E e s x HE Ht Hx) as Hg.
  assert (recFunc E e s x = ((recFunc E e s x).1, CNil)) as Heq.
  { rewrite (recFunc_spec P sepc) by (done || apply HE). done. }
  assert (∀ q, q ≠ x → wp_at (st_tree (recFunc E e s x).1) q = wp_at (st_tree s) q) as Hoth.
  { intros q Hq. rewrite (recFunc_spec P sepc) by (done || apply HE). cbn [fst]. rewrite upd_tree, wp_at_set_wp.
    by rewrite decide_False by naive_solver. }
  assert (tinv (st_tree (recFunc E e s x).1)) as Ht1.
  { rewrite (recFunc_spec P sepc) by (done || apply HE). cbn [fst]. rewrite upd_tree.
    apply tinv_set_wp; [done|]. apply wp_ok_wadd_rec; [done|done|done|]. by eapply tinv_wp_at. }
  rewrite Heq in Hs. set (s1 := (recFunc E e s x).1) in *.
  assert (is_Some (st_tree s1 !! x)) as Hx1 by (by apply (gr_nodes _ _ _ Hg)).
  rewrite (tinv_name P sepc (st_tree s1) x Ht1 Hn Hx1) in Hs.
  destruct (e_readdir E (st_tick s1) (render x)) as [ents|] eqn:Er.
  2:{ injection Hs as <- <-. split_and!; try done; [apply (gr_nodes _ _ _ Hg)|]. exists (st_tick s1). rewrite Er.
      split; [done|]. intros q. apply (recFunc_same_nodes E e s x). }
  assert (Forall (dirent_ok sepc) ents) as Hents.
  { rewrite <-(ne_sep _ _ _ HE). eapply eo_readdir; [|exact Er]. apply HE. }
  pose proof (adddir_children_spec P HP sepc E HE (st_tree s1) x ents Ht1 Hx1 Hents) as Had.
  pose proof (adddir_children_snd E (st_tree s1) x ents HE Ht1 Hx1 Hn) as Hsnd.
  cbn [st_tree ticked] in Hs.
  rewrite (surjective_pairing (adddir_children E (st_tree s1) x ents)) in Hs. injection Hs as <- <-.
  rewrite Hsnd in *. cbn [st_tree with_tree].
  assert (∀ q, wp_at (adddir_children E (st_tree s1) x ents).1 q = wp_at (st_tree s1) q) as Hwp.
  { intros q. unfold wp_at. destruct (st_tree s1 !! q) as [nd|] eqn:Eq; [by rewrite (ad_ext _ _ _ _ _ _ Had _ _ Eq)|].
    destruct ((adddir_children E (st_tree s1) x ents).1 !! q) as [nd|] eqn:Eq'; [|done].
    by destruct (ad_new _ _ _ _ _ _ Had _ _ Eq Eq') as (k&nm&_&_&_&->&_). }
  split_and!.
  - by eapply added_tinv.
  - intros q Hq. apply (gr_nodes _ _ _ Hg) in Hq as [nd Hq]. rewrite (ad_ext _ _ _ _ _ _ Had _ _ Hq). eauto.
  - intros q Hq. rewrite Hwp. by apply Hoth.
  - unfold rec_at. cbn [st_tree with_tree]. by rewrite Hwp.
  - exists (st_tick s1). rewrite Er. split_and!; [done| |].
    + intros de Hde Hd.
      apply (ad_qs _ _ _ _ _ _ Had). apply elem_of_list_fmap. exists de. split; [done|]. by apply elem_of_list_filter.
    + intros q [nd Hq]. destruct (st_tree s1 !! q) as [nd'|] eqn:Eq.
      * left. apply (recFunc_same_nodes E e s x). fold s1. eauto.
      * right. destruct (ad_new _ _ _ _ _ _ Had _ _ Eq Hq) as (k&nm&_&_&Hin&_). by apply (ad_only _ _ _ _ _ _ Had Hn).
Qed.

Lemma dirs_prefix D p q : dirs_ok D → q ∈ D → p `prefix_of` q → p ≠ [] → p ∈ D.
Proof.
  intros [_ Hc] Hq [r ->] Hp. induction r as [|k r IH] using rev_ind; [by rewrite app_nil_r in Hq|].
  rewrite app_assoc in Hq. apply Hc in Hq as [Hq|Hq]; [|by apply IH].
  apply app_eq_nil in Hq as [? ?]. done.
Qed.

(** AddDir on a filesystem [D]. *)
Lemma adddir_fs D E e s h s' r :
  nenv E → dirs_ok D → fs_env D E → u32 e → incl_ev (recursive P) e → tinv (st_tree s) → is_Some (st_tree s !! h) →
  gpath h → nd_adddir E (recFunc E e) s h = (s', r) →
  if decide (h ∈ D) then
    r = LDone ∧ (∀ q, ¬ (q ∈ D ∧ h `prefix_of` q) → wp_at (st_tree s') q = wp_at (st_tree s) q) ∧
    (∀ q, q ∈ D → h `prefix_of` q → rec_at s' q = Some (wget (wp_at (st_tree s) q) KRec .| recx e)) ∧
    (∀ q, is_Some (st_tree s' !! q) → is_Some (st_tree s !! q) ∨ q ∈ D)
  else r = LErr ∧ (∀ q, q ≠ h → wp_at (st_tree s') q = wp_at (st_tree s) q) ∧
    (∀ q, is_Some (st_tree s' !! q) → is_Some (st_tree s !! q)).
Proof.
  intros HE HD (HF1&HF2&HF3) H32 Hrec Ht Hh Hg Hl. unfold nd_adddir in Hl.
  destruct (decide (h ∈ D)) as [HhD|HhD].
  2:{ destruct (e_fuel E) as [|fuel]; [lia|]. cbn [loop] in Hl.
      destruct (adddir_step E (recFunc E e) s h) as [s2 res] eqn:Es.
      destruct (adddir_step_eff E e s h s2 res) as (_&_&Ho&_&i&Hi); try done; [apply Hg|].
      rewrite HF2 in Hi by done. destruct Hi as [-> Hi]. injection Hl as <- <-. done. }
  set (Inv := λ s1 stack, tinv (st_tree s1) ∧ antichain stack ∧
    (∀ p, p ∈ stack → p ∈ D ∧ h `prefix_of` p ∧ is_Some (st_tree s1 !! p)) ∧
    (∀ q, ¬ (q ∈ D ∧ h `prefix_of` q) → wp_at (st_tree s1) q = wp_at (st_tree s) q) ∧
    (∀ q, q ∈ D → h `prefix_of` q →
       if decide (under stack q) then wp_at (st_tree s1) q = wp_at (st_tree s) q
       else rec_at s1 q = Some (wget (wp_at (st_tree s) q) KRec .| recx e)) ∧
    (∀ q, is_Some (st_tree s1 !! q) → is_Some (st_tree s !! q) ∨ q ∈ D)).
  set (mu := λ (_ : st) stack, size (filter (under stack) D)).
  assert (∀ s1 x rest s2 res, Inv s1 (x :: rest) → adddir_step E (recFunc E e) s1 x = (s2, res) →
    ∃ l, res = Push l ∧ Inv s2 (l ++ rest) ∧ (mu s2 (l ++ rest) < mu s1 (x :: rest))%nat) as Hstep.
  { intros s1 x rest s2 res (Ht1&Ha1&Hst1&Ho1&Hd1&Hnn1) Hs.
    destruct (Hst1 x ltac:(left)) as (HxD&Hhx&Hx).
    assert (gpath x) as (Hx1&Hx2&Hx3) by (by apply HD).
    destruct (adddir_step_eff E e s1 x s2 res) as (Ht2&Hn2&Hw2&Hr2&i&Hi); try done.
    destruct (HF1 i x HxD) as (ents&Hents&Hnd&Hch). rewrite Hents in Hi. destruct Hi as (->&Hnew&Hnn2).
    set (ks := reverse (de_name <$> filter (λ de, isdir de = true) ents)).
    assert (reverse ((λ de, x ++ [de_name de]) <$> filter (λ de, isdir de = true) ents) = (λ k, x ++ [k]) <$> ks) as Hks.
    { unfold ks. rewrite fmap_reverse, <-list_fmap_compose. done. }
    assert (∀ k, k ∈ ks ↔ x ++ [k] ∈ D) as Hin.
    { intros k. rewrite Hch. unfold ks. rewrite elem_of_reverse, elem_of_list_fmap. unfold isdir. split.
      - intros (de&->&[Hd Hde]%elem_of_list_filter). apply andb_true_iff in Hd as [? ?%negb_true_iff]. eauto.
      - intros (de&Hde&Hd1'&Hd2&<-). exists de. split; [done|]. apply elem_of_list_filter. by rewrite Hd1', Hd2. }
    assert (NoDup ks) as HndK.
    { unfold ks. rewrite reverse_Permutation. by apply NoDup_names. }
    rewrite Hks. eexists. split; [done|].
    assert (∀ q, q ∈ D → (under (((λ k, x ++ [k]) <$> ks) ++ rest) q ↔ under (x :: rest) q ∧ q ≠ x)) as Hun.
    { intros q Hq. apply under_push; [done|]. intros k r0 ->. apply Hin.
      eapply dirs_prefix; [done|exact Hq| |by destruct x]. exists r0. by rewrite <-app_assoc. }
    split.
    - unfold Inv. split_and!.
      + done.
      + by apply antichain_push.
      + intros p [(k&->&Hk)%elem_of_list_fmap|Hp]%elem_of_app.
        * split_and!; [by apply Hin|by apply prefix_app_r|]. apply Hin, Hch in Hk as (de&Hde&Hk1&Hk2&<-).
          apply Hnew; [done|]. unfold isdir. by rewrite Hk1, Hk2.
        * destruct (Hst1 p ltac:(by right)) as (?&?&?). eauto.
      + intros q Hq. rewrite Hw2; [by apply Ho1|]. intros ->. by apply Hq.
      + intros q Hq Hhq. specialize (Hd1 q Hq Hhq). destruct (decide (q = x)) as [->|Hqx].
        * rewrite decide_False by (rewrite Hun by done; naive_solver).
          rewrite decide_True in Hd1 by (apply under_cons; by left). by rewrite Hr2, Hd1.
        * destruct (decide (under (x :: rest) q)) as [Hu|Hu].
          -- rewrite decide_True by (by rewrite Hun). rewrite Hw2 by done. done.
          -- rewrite decide_False by (rewrite Hun by done; naive_solver). unfold rec_at. rewrite Hw2 by done. done.
      + intros q Hq. apply Hnn2 in Hq as [Hq|(de&Hde&Hk1&Hk2&->)]; [by apply Hnn1|].
        right. apply Hch. by exists de.
    - unfold mu. apply subset_size. split.
      + intros q [H1 H2]%elem_of_filter. apply elem_of_filter. split; [|done]. by apply Hun in H1 as [? _].
      + intros Hsub. specialize (Hsub x). rewrite !elem_of_filter, Hun in Hsub by done.
        destruct Hsub as [[_ Hne] _]; [|done]. split; [|done]. apply under_cons. by left. }
  assert (Inv s [h]) as Hinit.
  { unfold Inv. split_and!; [done|apply antichain_single| |done| |by left].
    - by intros p ->%elem_of_list_singleton.
    - intros q Hq Hhq. rewrite decide_True; [done|]. apply under_cons. by left. }
  assert (r ≠ LFuel) as Hfuel.
  { eapply (loop_terminates _ Inv mu); [|exact Hinit| |exact Hl].
    - intros s1 x rest s2 l Hi Hs. destruct (Hstep _ _ _ _ _ Hi Hs) as (l'&[= ->]&?&?). done.
    - unfold mu. eapply Nat.le_lt_trans; [|exact HF3]. apply subseteq_size. set_solver. }
  eapply (loop_ind _ Inv (λ _, False)) in Hl; [| | |exact Hinit].
  - destruct r; [|done..]. destruct Hl as (_&_&_&Ho&Hd&Hnn). split_and!; [done|done| |done].
    intros q Hq Hhq. specialize (Hd q Hq Hhq). by rewrite decide_False in Hd by apply under_nil.
  - intros s1 x rest s2 l Hi Hs. by destruct (Hstep _ _ _ _ _ Hi Hs) as (l'&[= ->]&?&?).
  - intros s1 x rest s2 Hi Hs. by destruct (Hstep _ _ _ _ _ Hi Hs) as (l'&?&?&?).
Qed.

(** Walk. *)
Lemma walk_fs E e s h s' r :
  nenv E → u32 e → incl_ev (recursive P) e → tinv (st_tree s) → is_Some (st_tree s !! h) →
  nd_walk E (recFunc E e) s h = (s', r) →
  (∀ q, ¬ h `prefix_of` q → wp_at (st_tree s') q = wp_at (st_tree s) q) ∧
  (∀ q, is_Some (st_tree s !! q) → h `prefix_of` q → [] ∉ q → rec_at s' q = Some (wget (wp_at (st_tree s) q) KRec .| recx e)) ∧
  same_nodes (st_tree s) (st_tree s').
Proof.
  intros HE H32 Hrec Ht Hh Hl.
  set (I := λ s1 stack, same_nodes (st_tree s) (st_tree s1) ∧ (∀ p, p ∈ stack → h `prefix_of` p) ∧
    (∀ q, ¬ h `prefix_of` q → wp_at (st_tree s1) q = wp_at (st_tree s) q) ∧
    (∀ q, is_Some (st_tree s !! q) → h `prefix_of` q → [] ∉ q →
       under stack q ∨ (is_Some (rec_at s1 q) ∧ incl_ev (recx e) (wget (wp_at (st_tree s1) q) KRec)))).
  destruct (walk_loop P HP sepc E HE e I s h s' r) as (_&_&Hg&_&Hsn&(_&_&Ho&Hd)); try done.
  - intros s1 p rest ks (Hsn&Hst&Ho&Hd) Ht1 Hp1 Hg. cbn zeta. intros Hks. unfold I. cbn [st_tree ticked].
    assert (same_nodes (st_tree s1) (st_tree (recFunc E e s1 p).1)) as Hsn1 by apply recFunc_same_nodes.
    split_and!.
    + by eapply same_nodes_trans.
    + intros q [(k&->&Hk)%elem_of_list_fmap|Hq]%elem_of_app; [|apply Hst; by right].
      apply prefix_app_r. apply Hst. left.
    + intros q Hq. rewrite (recFunc_spec P sepc) by (done || apply HE). cbn [fst]. rewrite upd_tree, wp_at_set_wp.
      rewrite decide_False; [by apply Ho|]. intros [-> _]. apply Hq, Hst. left.
    + intros q Hq Hhq Hqn. destruct (decide (q = p)) as [->|Hqp].
      * right. pose proof (recFunc_covers P sepc E e s1 p HE Ht1 Hp1) as Hcv. unfold rec_at. cbn [st_tree ticked].
        rewrite Hcv. split; [eauto|]. rewrite (wget_Some _ _ _ Hcv). clear. bits.
      * destruct (Hd q Hq Hhq Hqn) as [[Hpq|Hu]%under_cons|[Hs Hi]].
        -- left. apply under_app. left. destruct (prefix_strict _ _ Hpq ltac:(congruence)) as (k&r0&->).
           apply under_elem. exists (p ++ [k]). split; [|exists r0; by rewrite <-app_assoc].
           apply elem_of_list_fmap. exists k. split; [done|]. apply Hks. split; [|set_solver].
           apply Hsn1, Hsn. eapply (closed_prefix _ _ _ (tinv_closed _ _ _ Ht)); [|exact Hq].
           exists r0. by rewrite <-app_assoc.
        -- left. apply under_app. by right.
        -- right. pose proof (grow_rec_mono _ _ _ q Hg) as Hm. split.
           ++ unfold rec_at in *. cbn [st_tree ticked]. destruct (gr_rec _ _ _ Hg q) as [->| ->]; eauto.
           ++ intros i Hi'. by apply Hm, Hi.
  - unfold I. split_and!; [apply same_nodes_refl| |done|].
    + by intros p ->%elem_of_list_singleton.
    + intros q _ Hq _. left. apply under_cons. by left.
  - split_and!; [done| |done]. intros q Hq Hhq Hqn. destruct (Hd q Hq Hhq Hqn) as [Hu|[[x Hs] Hi]]; [by apply under_nil in Hu|].
    unfold rec_at in *. destruct (gr_rec _ _ _ Hg q) as [Heq|Heq]; [|done].
    rewrite Hs. f_equal. unfold wget in *. rewrite Heq in Hs. rewrite Hs. rewrite Heq, Hs in Hi. simpl in *.
    clear - Hi. bits.
Qed.

(** ** Coverage *)
Definition cov (D : gset path) (s : st) : Prop :=
  rec_at s [] = None ∧
  ∀ p q r, p ∈ D → q ∈ D → p `prefix_of` q → rec_at s p = Some r → ∃ r', rec_at s q = Some r' ∧ incl_ev r r'.
Lemma cov_same D s s' : (∀ q, rec_at s' q = rec_at s q) → cov D s → cov D s'.
Proof. intros H [H0 H1]. split; [by rewrite H|]. intros p q r. rewrite !H. apply H1. Qed.

(** Extending a whole subtree. *)
Lemma cov_grow D s s' h x :
  dirs_ok D → h ≠ [] → cov D s →
  (∀ q, ¬ h `prefix_of` q → rec_at s' q = rec_at s q) →
  (∀ q, q ∈ D → h `prefix_of` q → rec_at s' q = Some (wget (wp_at (st_tree s) q) KRec .| x)) →
  cov D s'.
Proof.
  intros HD Hh [H0 H1] Ho Hi. split.
  { rewrite Ho; [done|]. intros [r Hr]. symmetry in Hr. by apply app_eq_nil in Hr as [? _]. }
  intros p q r Hp Hq Hpq Hr. destruct (decide (h `prefix_of` q)) as [Hhq|Hhq].
  - rewrite (Hi q Hq Hhq). eexists. split; [done|]. destruct (decide (h `prefix_of` p)) as [Hhp|Hhp].
    + rewrite (Hi p Hp Hhp) in Hr. injection Hr as <-.
      assert (incl_ev (wget (wp_at (st_tree s) p) KRec) (wget (wp_at (st_tree s) q) KRec)) as Hm.
      { unfold rec_at in *. destruct (wp_at (st_tree s) p !! KRec) as [r0|] eqn:Ep.
        - destruct (H1 p q r0 Hp Hq Hpq Ep) as (r'&Hr'&Hinc). unfold rec_at in Hr'.
          by rewrite (wget_Some _ _ _ Ep), (wget_Some _ _ _ Hr').
        - rewrite (wget_None _ _ Ep). clear. bits. }
      clear - Hm. bits.
    + rewrite Ho in Hr by done. destruct (H1 p q r Hp Hq Hpq Hr) as (r'&Hr'&Hinc).
      unfold rec_at in Hr'. rewrite (wget_Some _ _ _ Hr'). clear - Hinc. bits.
  - assert (¬ h `prefix_of` p) as Hhp by (intros Hx; apply Hhq; by etrans).
    rewrite Ho in Hr by done. rewrite Ho by done. exact (H1 p q r Hp Hq Hpq Hr).
Qed.

(** The watch calls. *)
Lemma incl_refl x : incl_ev x x.
Proof. by intros i. Qed.
Lemma grow_rec_some x t t' p r :
  grow x t t' → wp_at t p !! KRec = Some r → ∃ r', wp_at t' p !! KRec = Some r' ∧ incl_ev r r'.
Proof.
  intros Hg Hr. destruct (gr_rec _ _ _ Hg p) as [->| ->]; [eauto using incl_refl|].
  eexists. split; [done|]. rewrite (wget_Some _ _ _ Hr). clear. bits.
Qed.
Lemma plain_rec E s p n e s' r :
  nenv E → nop_ok (NWatch p false n e) → tinv (st_tree s) → nstep E s (NWatch p false n e) = (s', r) →
  (∀ q, rec_at s' q = rec_at s q) ∧ (∀ q, is_Some (st_tree s' !! q) → is_Some (st_tree s !! q) ∨ q `prefix_of` p).
Proof.
  intros HE (Hu&H32&Hue) Ht Hs. simpl in Hs. unfold nr_Watch in Hs.
  assert (disj_ev e (omit P)) as Hom by (clear - Hue; unfold user_ev, internal in *; bits).
  destruct (nr_add_spec P sepc E (st_tree s) p HE Ht Hu) as (t1&Hadd&Ht1&Hp1&Hw1&Hl1). rewrite Hadd in Hs.
  assert (∀ q, is_Some (t1 !! q) → is_Some (st_tree s !! q) ∨ q `prefix_of` p) as Hn1.
  { intros q [nd Hq]. rewrite Hl1 in Hq. destruct (st_tree s !! q); [eauto|].
    destruct (decide (q ≠ [] ∧ q `prefix_of` p)) as [[_ ?]|]; [by right|done]. }
  unfold rec_at.
  destruct (nr_watch_cases P sepc E (with_tree s t1) p n e s' r) as [(->&Hok&->)|(->&c&wp'&Hc&HW&->&Hok&Hoth&_)]; try done.
  - apply HE.
  - rewrite upd_tree. cbn [st_tree with_tree] in *. split; intros q.
    + rewrite wp_at_set_wp. destruct (decide (q = p ∧ is_Some (t1 !! p))) as [[-> _]|_]; [|by rewrite Hw1].
      rewrite wadd_get by done. rewrite bool_decide_false by done. by rewrite Hw1.
    + rewrite set_wp_is_Some. apply Hn1.
  - cbn [st_tree with_tree] in *. split; intros q.
    + rewrite wp_at_set_wp. destruct (decide (q = p ∧ is_Some (t1 !! p))) as [[-> _]|_]; [|by rewrite Hw1].
      rewrite Hoth by done. by rewrite Hw1.
    + rewrite set_wp_is_Some. apply Hn1.
Qed.

Lemma wrec_cov D E s p n e s' r :
  nenv E → nop_ok (NWatch p true n e) → [] ∉ p → dirs_ok D → fs_env D E → tinv (st_tree s) → cov D s →
  nstep E s (NWatch p true n e) = (s', r) →
  cov D s' ∧
  (∀ q x, rec_at s q = Some x → ∃ x', rec_at s' q = Some x' ∧ incl_ev x x') ∧
  (r = ROk → ∃ x, rec_at s' p = Some x ∧ incl_ev (e .| Create P) x) ∧ (p ∈ D → r = ROk) ∧
  (∀ q, is_Some (st_tree s' !! q) → is_Some (st_tree s !! q) ∨ q `prefix_of` p ∨ q ∈ D).
Proof.
  intros HE (Hu&H32&Hue) Hnil HD HF Ht Hcov Hs. simpl in Hs. unfold nr_Watch in Hs.
  assert (disj_ev e (omit P)) as Hom by (clear - Hue; unfold user_ev, internal in *; bits).
  destruct (nr_add_spec P sepc E (st_tree s) p HE Ht Hu) as (t1&Hadd&Ht1&Hp1&Hw1&Hl1). rewrite Hadd in Hs.
  rewrite (ne_plat _ _ _ HE) in Hs. set (e' := e .| recursive P) in *.
  assert (gpath p) as Hg by (split_and!; [apply Hu|apply Hu|done]).
  assert (u32 e') as H32' by (apply u32_lor; [done|by apply u32_recursive]).
  assert (incl_ev (recursive P) e') as Hrec by (unfold e'; clear; bits).
  assert (∀ q, rec_at (with_tree s t1) q = rec_at s q) as Hrw by (intros q; unfold rec_at; cbn [st_tree with_tree]; by rewrite Hw1).
  assert (cov D (with_tree s t1)) as Hcov1 by (by apply (cov_same D s)).
  assert (∀ q, is_Some (t1 !! q) → is_Some (st_tree s !! q) ∨ q `prefix_of` p) as Hn1.
  { intros q [nd Hq]. rewrite Hl1 in Hq. destruct (st_tree s !! q); [eauto|].
    destruct (decide (q ≠ [] ∧ q `prefix_of` p)) as [[_ ?]|]; [by right|done]. }
  assert (∀ x, rec_at s p = Some x → incl_ev (NonRecWp.recbits P) x) as Hbits.
  { intros x Hx. eapply wo_rec; [|exact Hx]. by eapply tinv_wp_at. }
  destruct (watchrec_spec P HP sepc E (with_tree s t1) p n e' s' r) as (_&_&H3); try done.
  { unfold e'. pose proof (d_re_om P HP) as Hd. clear - Hd Hom. bits. }
  set (s0 := with_tree s t1) in *.
  destruct H3 as [(Hr&Hnone&Hg3&r'&Hr'&Ha)|(->&s1&wp'&->&Ht2&Hh2&Hgr&Hrg&Hc)].
  - pose proof (adddir_fs D E e' s0 p s' r' HE HD HF H32' Hrec Ht1 Hp1 Hg Ha) as Hfs.
    destruct (decide (p ∈ D)) as [HpD|HpD]; [by destruct Hfs|]. destruct Hfs as (_&Ho&Hnn).
    assert (∀ q, q ≠ p → rec_at s' q = rec_at s0 q) as Hsame by (intros q Hq; unfold rec_at; by rewrite Ho).
    split_and!; [| |done|done|by intros q Hq%Hnn%Hn1; naive_solver].
    + destruct Hcov1 as [K0 K1]. split; [rewrite Hsame; [done|]; intros <-; by destruct Hu|].
      intros x y z Hx Hy. rewrite !Hsame by (intros ->; done). by apply K1.
    + intros q x Hx. rewrite <-Hrw in Hx. by eapply grow_rec_some.
  - assert (∀ q, rec_at (with_tree s1 (set_wp (st_tree s1) p wp')) q =
      if decide (q = p) then Some (wget (wp_at (st_tree s1) p) KRec .| recx e') else rec_at s1 q) as Hfin.
    { intros q. unfold rec_at. cbn [st_tree with_tree]. rewrite wp_at_set_wp. destruct (decide (q = p)) as [->|Hq].
      - rewrite decide_True by done. by rewrite (rg_rec _ _ _ _ _ Hrg).
      - by rewrite decide_False by naive_solver. }
    assert (∀ q x, rec_at s q = Some x → ∃ x', rec_at s1 q = Some x' ∧ incl_ev x x') as Hmono.
    { intros q x Hx. rewrite <-Hrw in Hx. by eapply grow_rec_some. }
    assert (cov D s1 ∧ rec_at s1 p = Some (wget (wp_at (st_tree s1) p) KRec .| recx e') ∧
      ∀ q, is_Some (st_tree s1 !! q) → is_Some (t1 !! q) ∨ q ∈ D) as (Hcov2&Hp2&Hnn).
    { destruct Hc as [[-> Hi]|[[Hnone Ha]|[Hsome Ha]]].
      - split_and!; [done| |by left]. assert (incl_ev (Create P) (wget (wp_at (st_tree s0) p) KRec)) as Hcr.
        { pose proof (d_cr_int P HP) as Hdi. unfold vis, NonRecFacts.recx in Hi. clear - Hdi Hi. bits. }
        unfold rec_at. destruct (wp_at (st_tree s0) p !! KRec) as [x|] eqn:Ex.
        + f_equal. rewrite (wget_Some _ _ _ Ex) in Hi |- *.
          assert (incl_ev (NonRecWp.recbits P) x) as Hb by (apply Hbits; by rewrite <-Hrw).
          unfold vis, internal, NonRecFacts.recx, NonRecWp.recbits in *. clear - Hi Hb. bits.
        + rewrite (wget_None _ _ Ex) in Hcr. exfalso. by apply (nz_incl_create P HP _ Hcr).
      - pose proof (adddir_fs D E e' s0 p s1 LDone HE HD HF H32' Hrec Ht1 Hp1 Hg Ha) as Hfs.
        destruct (decide (p ∈ D)) as [HpD|HpD]; [|by destruct Hfs]. destruct Hfs as (_&Ho&Hi&Hnn). split_and!; [| |done].
        + eapply (cov_grow D s0 s1 p (recx e')); [done|apply Hu|done| |done].
          intros q Hq. unfold rec_at. rewrite Ho; [done|]. naive_solver.
        + pose proof (Hi p HpD ltac:(done)) as Hx. rewrite Hx. f_equal. unfold rec_at in Hx. rewrite (wget_Some _ _ _ Hx). clear. bits.
      - destruct (walk_fs E e' s0 p s1 LDone HE H32' Hrec Ht1 Hp1 Ha) as (Ho&Hi&Hsn). split_and!; [| |intros q Hq; left; by apply Hsn].
        + eapply (cov_grow D s0 s1 p (recx e')); [done|apply Hu|done| |].
          * intros q Hq. unfold rec_at. by rewrite Ho.
          * intros q Hq Hpq. apply Hi; [|done|by apply HD].
            assert (p ∈ D) as HpD by (eapply dirs_prefix; [done|exact Hq|done|apply Hu]).
            destruct Hsome as [x Hx]. destruct Hcov1 as [_ K1]. destruct (K1 p q x HpD Hq Hpq Hx) as (y&Hy&_).
            unfold rec_at, wp_at in Hy. destruct (st_tree s0 !! q); [eauto|done].
        + pose proof (Hi p Hp1 ltac:(done) Hnil) as Hx. rewrite Hx. f_equal. unfold rec_at in Hx. rewrite (wget_Some _ _ _ Hx). clear. bits. }
    assert (∀ q, rec_at (with_tree s1 (set_wp (st_tree s1) p wp')) q = rec_at s1 q) as Hsame.
    { intros q. rewrite Hfin. destruct (decide (q = p)) as [->|]; congruence. }
    split_and!; [by apply (cov_same D s1)| |intros _|done|].
    + intros q x Hx. rewrite Hsame. by apply Hmono.
    + rewrite Hsame, Hp2. eexists. split; [done|]. unfold NonRecFacts.recx, e'. clear. bits.
    + intros q. cbn [st_tree with_tree]. rewrite set_wp_is_Some. intros Hq. apply Hnn in Hq as [Hq%Hn1|]; naive_solver.
Qed.

(** Stop. *)
Lemma stop_rec E s n q :
  nenv E → tinv (st_tree s) →
  let s' := nr_Stop E s (KUser n) in
  let m := minof [] (st_tree s') q in
  rec_at s' q = match rec_at s q with
    | None => None
    | Some old =>
        if bool_decide (old .& rest P m (wp_at (st_tree s) q) (KUser n) = 0) then None
        else Some (m .| (old .& rest P m (wp_at (st_tree s) q) (KUser n)) .| (old .& internal P) .| Create P)
    end.
Proof.
  intros HE Ht. cbn zeta. destruct (nr_Stop_spec P HP sepc E n s HE Ht) as (H1&H2&H3&H4&H5).
  unfold rec_at at 1. rewrite H5.
  destruct (wdelmin_spec P HP (minof [] (st_tree (nr_Stop E s (KUser n))) q) (wp_at (st_tree s) q) n) as (_&_&Hr&_).
  - by eapply tinv_wp_at.
  - by eapply minof_ok.
  - exact Hr.
Qed.
Lemma land_create_nz a c : incl_ev (Create P) a → incl_ev (Create P) c → a .& c ≠ 0.
Proof. intros Ha Hc. apply (nz_incl_create P HP). clear - Ha Hc. bits. Qed.
Lemma stop_cov D E s n :
  nenv E → dirs_ok D → tinv (st_tree s) → cov D s → cov D (nr_Stop E s (KUser n)).
Proof.
  intros HE HD Ht [H0 H1]. split.
  { rewrite stop_rec by done. by rewrite H0. }
  assert (tinv (st_tree (nr_Stop E s (KUser n)))) as Ht' by (by apply nr_Stop_spec).
  intros p q r Hp Hq [k ->] Hr.
  assert (∃ r0, rec_at s p = Some r0) as [r0 Hr0].
  { rewrite stop_rec in Hr by done. destruct (rec_at s p); [eauto|done]. }
  revert Hq. induction k as [|c k IH] using rev_ind; intros Hq.
  { rewrite app_nil_r. exists r. split; [done|]. by intros i. }
  rewrite app_assoc in *. assert (p ++ k ∈ D) as Hq'.
  { eapply dirs_prefix; [done|exact Hq|by apply prefix_app_r|]. apply HD in Hp as (?&_). by destruct p. }
  destruct (IH Hq') as (r1&Hr1&Hi1).
  assert (p `prefix_of` (p ++ k) ++ [c]) as Hpq by (rewrite <-app_assoc; by apply prefix_app_r).
  destruct (H1 p ((p ++ k) ++ [c]) r0 Hp Hq Hpq Hr0) as (old&Hold&_).
  assert (minof [] (st_tree (nr_Stop E s (KUser n))) ((p ++ k) ++ [c]) = r1) as Hm.
  { unfold minof. rewrite decide_False by (by destruct (p ++ k)). rewrite removelast_snoc. by apply wget_Some. }
  assert (incl_ev (Create P) r1) as Hc1.
  { assert (incl_ev (NonRecWp.recbits P) r1) as Hb by (eapply wo_rec; [|exact Hr1]; by eapply tinv_wp_at).
    unfold NonRecWp.recbits in Hb. clear - Hb. bits. }
  assert (incl_ev (Create P) old) as Hco.
  { assert (incl_ev (NonRecWp.recbits P) old) as Hb by (eapply wo_rec; [|exact Hold]; by eapply tinv_wp_at).
    unfold NonRecWp.recbits in Hb. clear - Hb. bits. }
  rewrite stop_rec by done. rewrite Hm, Hold. rewrite bool_decide_false.
  - eexists. split; [done|]. clear - Hi1. bits.
  - apply land_create_nz; [done|]. unfold rest, vis. pose proof (d_cr_int P HP) as Hd. clear - Hc1 Hd. bits.
Qed.

(** Creation and removal of directories. *)
Lemma N_incl_le a c : incl_ev a c → a ≤ c.
Proof.
  intros H. assert (c = (c .&^ a) + a) as ->; [|lia].
  rewrite N.add_nocarry_lxor.
  - apply N.bits_inj. intros i. rewrite N.lxor_spec, N.ldiff_spec. specialize (H i). unfold has in H.
    destruct (N.testbit a i), (N.testbit c i); try done. by discriminate H.
  - apply N.bits_inj. intros i. rewrite N.land_spec, N.ldiff_spec, N.bits_0. by destruct (N.testbit a i), (N.testbit c i).
Qed.
Lemma create_mono E s ev p :
  nenv E → tinv (st_tree s) → gpath p → ev ≠ Remove P →
  ∀ q x, rec_at s q = Some x →
    ∃ x', rec_at (nr_internal E s (EI ev (render p) (Some true) fTypeDirectory)) q = Some x' ∧ incl_ev x x'.
Proof.
  intros HE Ht Hg Hev q x Hx.
  destruct (internal_create_cases P HP sepc E s ev p HE Ht Hg Hev)
    as [[-> _]|(q0&t1&e&r&Hq&Hqe&_&Ht1&Hp1&Hw1&_&_&Ha)]; [eauto using incl_refl|].
  set (s' := nr_internal E s (EI ev (render p) (Some true) fTypeDirectory)) in *.
  assert (wp_ok (wp_at (st_tree s) q0)) as Hwq by (by eapply tinv_wp_at).
  destruct (adddir_grow P HP sepc E e (with_tree s t1) p s' r) as (_&Hgr&_); try done.
  { by eapply wo_u32. }
  { pose proof (wo_rec _ _ Hwq _ Hqe) as Hy. unfold recbits in Hy. clear - Hy. bits. }
  eapply grow_rec_some; [exact Hgr|]. cbn [st_tree with_tree]. by rewrite Hw1.
Qed.
Lemma mkdir_cov D D' E s p :
  nenv E → dirs_ok D → dirs_ok D' → fs_env D' E → tinv (st_tree s) → cov D s →
  p ∈ D' → D ⊆ D' → (∀ q, q ∈ D' → q ∉ D → p `prefix_of` q) → st_tree s !! p = None →
  let s' := nr_internal E s (EI (Create P) (render p) (Some true) fTypeDirectory) in
  cov D' s' ∧ (∀ q, is_Some (st_tree s' !! q) → is_Some (st_tree s !! q) ∨ q = [] ∨ q ∈ D').
Proof.
  cbn zeta.
  intros HE HD HD' HF Ht [H0 H1] Hp Hsub Hnew Hnone.
  assert (gpath p) as Hg by (by apply HD').
  assert (Create P ≠ Remove P) as Hev.
  { intros Heq. pose proof (pok_disj P HP 0 1 (Create P) (Remove P) eq_refl eq_refl ltac:(done)) as Hd.
    rewrite <-Heq in Hd. apply (nz_cr P HP). clear - Hd. bits. }
  assert (∀ q, p `prefix_of` q → wp_at (st_tree s) q = ∅) as Hbelow.
  { intros q Hq. unfold wp_at. destruct (st_tree s !! q) as [nd|] eqn:Eq; [|done].
    destruct (closed_prefix (st_tree s) p q (tinv_closed _ _ _ Ht) Hq); [eauto|congruence]. }
  assert (∀ q, p `prefix_of` q → rec_at s q = None) as Hbelow'.
  { intros q Hq. unfold rec_at. by rewrite Hbelow. }
  assert (∀ q, q ∈ D' → ¬ p `prefix_of` q → q ∈ D) as Hold.
  { intros q Hq Hpq. destruct (decide (q ∈ D)); [done|]. by destruct Hpq; apply Hnew. }
  destruct (internal_create_cases P HP sepc E s (Create P) p HE Ht Hg Hev)
    as [[-> Hno]|(q0&t1&e&r&Hq&Hqe&Hmax&Ht1&Hp1&Hw1&_&Hnn1&Ha)].
  { split; [|by left]. split; [done|]. intros x y r Hx Hy Hxy Hr.
    destruct (decide (p `prefix_of` x)) as [Hpx|Hpx]; [by rewrite Hbelow' in Hr|].
    destruct (decide (p `prefix_of` y)) as [Hpy|Hpy]; [|exact (H1 x y r (Hold _ Hx Hpx) (Hold _ Hy Hpy) Hxy Hr)].
    destruct (prefix_weak_total _ _ _ Hxy Hpy) as [Hxp|Hpx']; [|done].
    apply Hno in Hxp. unfold rec_at in Hr. congruence. }
  set (s' := nr_internal E s (EI (Create P) (render p) (Some true) fTypeDirectory)) in *.
  assert (wp_ok (wp_at (st_tree s) q0)) as Hwq by (by eapply tinv_wp_at).
  pose proof (adddir_fs D' E e (with_tree s t1) p s' r) as Hfs.
  rewrite decide_True in Hfs by done. cbn [st_tree with_tree] in Hfs.
  destruct Hfs as (_&Ho&Hi&Hnn); try done.
  { by eapply wo_u32. }
  { pose proof (wo_rec _ _ Hwq _ Hqe) as Hy. unfold recbits in Hy. clear - Hy. bits. }
  assert (∀ q, ¬ p `prefix_of` q → rec_at s' q = rec_at s q) as Ho'.
  { intros q Hpq. unfold rec_at. rewrite Ho by naive_solver. by rewrite Hw1. }
  assert (∀ q, q ∈ D' → p `prefix_of` q → rec_at s' q = Some (recx e)) as Hi'.
  { intros q Hq' Hpq. rewrite Hi by done. rewrite Hw1, Hbelow by done. done. }
  (* everything a recursive watch above asks for is in [e] *)
  assert (∀ x r, x `prefix_of` p → rec_at s x = Some r → incl_ev r e) as Habove.
  { intros x rx Hxp Hrx.
    assert (x ≠ []) as Hx0 by (intros ->; congruence).
    assert (q0 ≠ []) as Hq00 by (intros ->; unfold rec_at in H0; congruence).
    assert (x ∈ D ∧ q0 ∈ D) as [HxD Hq0D].
    { split; apply Hold.
      - by eapply dirs_prefix.
      - intros Hpx. by rewrite Hbelow' in Hrx.
      - by eapply dirs_prefix.
      - intros Hpx. unfold rec_at in Hbelow'. rewrite Hbelow' in Hqe by done. done. }
    destruct (prefix_weak_total _ _ _ Hxp Hq) as [Hxq|Hqx].
    - destruct (H1 x q0 rx HxD Hq0D Hxq Hrx) as (e'&He'&Hi2). unfold rec_at in He'. by simplify_eq.
    - destruct (H1 q0 x e Hq0D HxD Hqx Hqe) as (rx'&Hrx'&Hi2). simplify_eq.
      pose proof (Hmax x Hxp) as Hle. unfold rec_at in Hrx. rewrite (wget_Some _ _ _ Hrx) in Hle.
      pose proof (N_incl_le _ _ Hi2) as Hge. assert (rx = e) as -> by lia. by intros i. }
  split.
  2:{ intros q [[nd Hq']|Hq']%Hnn; [|by right; right]. destruct (st_tree s !! q) as [nd'|] eqn:Eq; [eauto|].
      right. destruct (Hnn1 _ _ Eq Hq') as [Hqp _]. destruct (decide (q = [])); [by left|right]. by eapply dirs_prefix. }
  split.
  { rewrite Ho'; [done|]. intros [k Hk]. symmetry in Hk. apply app_eq_nil in Hk as [-> _]. by destruct Hg. }
  intros x y rx Hx Hy Hxy Hrx. destruct (decide (p `prefix_of` y)) as [Hpy|Hpy].
  - rewrite (Hi' y Hy Hpy). eexists. split; [done|].
    destruct (decide (p `prefix_of` x)) as [Hpx|Hpx].
    + rewrite (Hi' x Hx Hpx) in Hrx. injection Hrx as <-. by intros i.
    + rewrite Ho' in Hrx by done. destruct (prefix_weak_total _ _ _ Hxy Hpy) as [Hxp|Hpx']; [|done].
      pose proof (Habove x rx Hxp Hrx) as Hinc. unfold NonRecFacts.recx. clear - Hinc. bits.
  - assert (¬ p `prefix_of` x) as Hpx by (intros Hz; apply Hpy; by etrans).
    rewrite Ho' in Hrx by done. rewrite Ho' by done. eapply (H1 x y rx); [by apply Hold|by apply Hold|done|done].
Qed.

Lemma del_nodes E t p q :
  nenv E → tinv t → upath sepc p → is_Some ((r_del (e_sep E) (e_vol E) t (render p)).1 !! q) →
  is_Some (t !! q) ∧ ¬ p `prefix_of` q.
Proof.
  intros HE Ht Hp Hq. pose proof (upath_spells P sepc E p HE Hp) as Hsp. rewrite (ne_sep _ _ _ HE) in Hq.
  destruct (t !! q) as [nd|] eqn:Eq.
  2:{ rewrite r_del_None in Hq by done. by destruct Hq. }
  split; [eauto|]. intros Hpq. destruct (t !! p) as [ndp|] eqn:Ep.
  2:{ destruct (closed_prefix t p q (tinv_closed _ _ _ Ht) Hpq); [eauto|congruence]. }
  destruct (r_del_spec sepc (e_vol E) false t p (render p) q (ti_wf _ _ _ Ht) Hsp) as (_&H1&_); [eauto|eauto|].
  rewrite H1 in Hq; [by destruct Hq|]. by left.
Qed.
Lemma rmdir_spec E s p :
  nenv E → tinv (st_tree s) → gpath p →
  let s' := nr_internal E s (EI (Remove P) (render p) (Some true) fTypeDirectory) in
  (∀ q, wp_at (st_tree s') q = if decide (p `prefix_of` q) then ∅ else wp_at (st_tree s) q) ∧
  (∀ q, is_Some (st_tree s' !! q) → is_Some (st_tree s !! q) ∧ ¬ p `prefix_of` q).
Proof.
  intros HE Ht Hg. cbn zeta.
  assert (upath sepc p) as Hu by (by apply (gpath_upath P HP)).
  destruct (internal_remove_spec P HP sepc E s p HE Ht Hg) as [[-> Hn]|(s1&Hp&_&Ht1&_&->)].
  - assert (∀ q, p `prefix_of` q → st_tree s !! q = None) as Hb.
    { intros q Hq. destruct (st_tree s !! q) eqn:Eq; [|done].
      destruct (closed_prefix (st_tree s) p q (tinv_closed _ _ _ Ht) Hq); [eauto|congruence]. }
    split; intros q.
    + destruct (decide (p `prefix_of` q)) as [Hq|]; [|done]. unfold wp_at. by rewrite Hb.
    + intros Hs. split; [done|]. intros Hq. rewrite Hb in Hs by done. by destruct Hs.
  - cbn [st_tree with_tree]. split; intros q.
    + by apply (wp_at_del P sepc).
    + by apply del_nodes.
Qed.
Lemma rmdir_cov D D' E s p :
  nenv E → tinv (st_tree s) → gpath p → cov D s → D' ⊆ D → (∀ q, q ∈ D' → ¬ p `prefix_of` q) →
  cov D' (nr_internal E s (EI (Remove P) (render p) (Some true) fTypeDirectory)).
Proof.
  intros HE Ht Hg [H0 H1] Hsub Hno. destruct (rmdir_spec E s p HE Ht Hg) as [Hw _].
  assert (∀ q, ¬ p `prefix_of` q → rec_at (nr_internal E s (EI (Remove P) (render p) (Some true) fTypeDirectory)) q = rec_at s q) as Hr.
  { intros q Hq. unfold rec_at. by rewrite Hw, decide_False. }
  split.
  - rewrite Hr; [done|]. intros [k Hk]. symmetry in Hk. apply app_eq_nil in Hk as [-> _]. by destruct Hg.
  - intros x y r Hx Hy. rewrite !Hr by auto. apply H1; auto.
Qed.

(** ** Histories on a filesystem *)
Notation fexec := (fexec P sepc).
Notation touched := (touched P).
Lemma fexec_where tr D s : fexec tr D s → nexec_where P sepc os_good tr s.
Proof.
  induction 1 as [|tr D s E o s' r H IH HE Ho Hg HF Hne Hs|tr D D' p s E s' r H IH HE Hrel HD' HF Hp Hsub Hnew HpD Hnt Hs
    |tr D D' p s E s' r H IH HE Hrel Hg HD' Hs]; [constructor|by econstructor| |].
  - eapply nw_step; [done|done| |done|done]. by apply HD'.
  - by eapply nw_step.
Qed.
Lemma touched_snoc tr o r q :
  touched tr q → (∀ p, o = NEvent (Remove P) p → ¬ p `prefix_of` q) → touched (tr ++ [(o, r)]) q.
Proof.
  intros (tr1&p'&b&n&e&r0&tr2&->&Hq&Hno) Hno'. exists tr1, p', b, n, e, r0, (tr2 ++ [(o, r)]).
  split_and!; [by rewrite <-app_assoc|done|]. intros q' r' [Hin|Hin%elem_of_list_singleton]%elem_of_app; [eauto|]. injection Hin as Ho _. by apply Hno'.
Qed.
Lemma touched_watch tr p b n e r q : q `prefix_of` p → touched (tr ++ [(NWatch p b n e, r)]) q.
Proof.
  intros Hq. exists tr, p, b, n, e, r, []. split_and!; [done|done|]. intros q' r' []%elem_of_nil.
Qed.
Lemma fexec_inv tr D s :
  fexec tr D s →
  dirs_ok D ∧ tinv (st_tree s) ∧ cov D s ∧ (∀ q, is_Some (st_tree s !! q) → q = [] ∨ q ∈ D ∨ touched tr q).
Proof.
  induction 1 as [D HD|tr D s E o s' r H IH HE Ho Hg HF Hne Hs|tr D D' p s E s' r H IH HE Hrel HD' HF Hp Hsub Hnew HpD Hnt Hs
    |tr D D' p s E s' r H IH HE Hrel Hg HD' Hs].
  - split_and!; [done|by apply tinv_init| |].
    + assert (∀ q, rec_at init_st q = None) as Hn.
      { intros q. unfold rec_at, wp_at. destruct (st_tree init_st !! q) as [nd|] eqn:Eq; [|done].
        simpl in Eq. apply lookup_singleton_Some in Eq as [<- <-]. done. }
      split; [done|]. intros p q r _ _ _ Hr. by rewrite Hn in Hr.
    + intros q [nd Hq]. simpl in Hq. apply lookup_singleton_Some in Hq as [<- _]. by left.
  - destruct IH as (HD&Ht&Hc&Hn). destruct (nstep_spec P HP sepc E s o s' r HE Ho Ht Hs) as (Ht'&_).
    destruct o as [p isrec n e|n|ev p]; [|simpl in Hs; injection Hs as <- <-|by destruct (Hne ev p)].
    + assert (∀ q, touched tr q → touched (tr ++ [(NWatch p isrec n e, r)]) q) as Htt by (intros q Hq; by apply touched_snoc).
      destruct isrec.
      * destruct Hg as (_&Hnil&_).
        destruct (wrec_cov D E s p n e s' r HE Ho Hnil HD HF Ht Hc Hs) as (Hc'&_&_&_&Hn').
        split_and!; [done|done|done|]. intros q [Hq%Hn|[Hq|Hq]]%Hn'; [naive_solver| |by right; left].
        right; right. by apply touched_watch.
      * destruct (plain_rec E s p n e s' r HE Ho Ht Hs) as [Hr' Hn'].
        split_and!; [done|done|by apply (cov_same D s)|]. intros q [Hq%Hn|Hq]%Hn'; [naive_solver|].
        right; right. by apply touched_watch.
    + split_and!; [done|done|by apply stop_cov|]. intros q Hq.
      destruct (nr_Stop_spec P HP sepc E n s HE Ht) as (_&Hsn&_). apply Hsn, Hn in Hq as [?|[?|?]]; [by left|by right; left|].
      right; right. by apply touched_snoc.
  - destruct IH as (HD&Ht&Hc&Hn). assert (nop_ok (NEvent (Create P) p)) as Ho by (by apply HD').
    destruct (nstep_spec P HP sepc E s _ s' r HE Ho Ht Hs) as (Ht'&_). simpl in Hs. injection Hs as <- <-.
    destruct (mkdir_cov D D' E s p) as [Hc' Hn']; try done.
    { destruct (st_tree s !! p) as [nd|] eqn:Ep; [|done]. destruct (Hn p) as [->|[?|?]]; [eauto|by destruct Ho|done|done]. }
    split_and!; [done|done|done|]. intros q [[?|[?|?]]%Hn|[?|?]]%Hn'; [by left|right; left; by apply Hsub| |by left|by right; left].
    right; right. apply touched_snoc; [done|]. intros p' [= Heq _].
    exfalso. pose proof (pok_disj P HP 0 1 (Create P) (Remove P) eq_refl eq_refl ltac:(done)) as Hd.
    rewrite <-Heq in Hd. apply (nz_cr P HP). clear - Hd. bits.
  - destruct IH as (HD&Ht&Hc&Hn).
    destruct (nstep_spec P HP sepc E s (NEvent (Remove P) p) s' r HE Hg Ht Hs) as (Ht'&_). simpl in Hs. injection Hs as <- <-.
    split_and!.
    + split; [intros q Hq; apply HD; by apply HD' in Hq as [? _]|].
      intros q c [Hq Hnp]%HD'. destruct HD as [_ HD]. destruct (HD _ _ Hq) as [->|Hq']; [by left|right].
      apply HD'. split; [done|]. intros Hpq. apply Hnp. by apply prefix_app_r.
    + done.
    + eapply rmdir_cov; [done|done|done|exact Hc| |].
      * intros q Hq. by apply HD' in Hq as [? _].
      * intros q Hq. by apply HD' in Hq as [_ ?].
    + intros q Hq. destruct (rmdir_spec E s p HE Ht Hg) as [_ Hr]. apply Hr in Hq as [Hq Hnp].
      apply Hn in Hq as [?|[?|?]]; [by left|right; left; by apply HD'|right; right].
      apply touched_snoc; [done|]. by intros p' [= <-].
Qed.

(** ** Watches in force *)
Lemma app_split_last' {A} (a b tr : list A) x y :
  tr ++ [y] = a ++ x :: b → (b = [] ∧ tr = a ∧ x = y) ∨ ∃ b', b = b' ++ [y] ∧ tr = a ++ x :: b'.
Proof.
  intros H. destruct b as [|z b] using rev_ind.
  - apply app_inj_tail in H as [-> ->]. by left.
  - right. clear IHb. exists b. rewrite app_comm_cons, app_assoc in H. by apply app_inj_tail in H as [-> ->].
Qed.
Lemma fexec_in_force tr D s p n e :
  fexec tr D s → in_force P tr p n e →
  e ≠ 0 ∧ user_ev P e ∧ incl_ev e (ureg s p n) ∧ ∃ r, rec_at s p = Some r ∧ incl_ev (e .| Create P) r.
Proof.
  intros Hx. revert p n e.
  induction Hx as [D HD|tr D s E o s' r H IH HE Ho Hg HF Hne Hs|tr D D' p0 s E s' r H IH HE Hrel HD' HF Hp Hsub Hnew HpD Hnt Hs
    |tr D D' p0 s E s' r H IH HE Hrel Hg HD' Hs]; intros p n e (tr1&tr2&Heq&Hst&Hrm).
  { by destruct tr1. }
  all: destruct (fexec_inv _ _ _ H) as (HD&Ht&Hc&_).
  - destruct (nstep_spec P HP sepc E s o s' r HE Ho Ht Hs) as (Ht'&_&Hreg).
    apply app_split_last' in Heq as [(->&->&[= <- <-])|(tr2'&->&->)].
    + destruct Hg as (He&Hnil&_).
      destruct (wrec_cov D E s p n e s' ROk HE Ho Hnil HD HF Ht Hc Hs) as (_&_&Hk&_).
      split_and!; [done|apply Ho| |by apply Hk]. destruct Hreg as [_ ->]. clear. bits.
    + destruct (IH p n e) as (He&Hue&Hu&x&Hx&Hi).
      { exists tr1, tr2'. split_and!; [done|intros r' Hr'; apply (Hst r'); set_solver|intros q r' Hr'; apply (Hrm q r'); set_solver]. }
      split_and!; [done|done| |].
      * destruct o as [q b m e'|m|ev q]; [|simpl in Hreg; rewrite Hreg; rewrite decide_False; [done|]|by destruct (Hne ev q)].
        -- destruct Hreg as [Hoth Hown]. destruct (decide ((p, n) = (q, m))) as [[= -> ->]|Hd]; [|by rewrite Hoth].
           destruct r, b; try (rewrite Hown; clear - Hu; bits); destruct Hown as [Hown _]; clear - Hu Hown; bits.
        -- intros ->. apply (Hst r). set_solver.
      * destruct o as [q [] m e'|m|ev q]; [| | |by destruct (Hne ev q)].
        -- destruct Hg as (_&Hnil&_).
           destruct (wrec_cov D E s q m e' s' r HE Ho Hnil HD HF Ht Hc Hs) as (_&Hmono&_).
           destruct (Hmono p x Hx) as (x'&Hx'&Hi'). exists x'. split; [done|]. clear - Hi Hi'. bits.
        -- destruct (plain_rec E s q m e' s' r HE Ho Ht Hs) as [Hr' _]. rewrite Hr'. eauto.
        -- simpl in Hs. injection Hs as <- <-. rewrite stop_rec by done. rewrite Hx.
           set (mm := minof [] (st_tree (nr_Stop E s (KUser m))) p).
           assert (incl_ev e (rest P mm (wp_at (st_tree s) p) (KUser m))) as Hin.
           { intros i Hi0. assert (m ≠ n) as Hmn by (intros ->; apply (Hst ROk); set_solver).
             assert (has (others (delete (KUser m) (delete KRec (wp_at (st_tree s) p)))) i) as Hoi.
             { apply has_others_get. exists (KUser n). split; [done|]. apply Hu in Hi0. unfold ureg, wget in *.
               by rewrite !lookup_delete_ne by congruence. }
             unfold rest, vis. unfold user_ev in Hue. clear - Hi0 Hoi Hue. revert i Hi0 Hoi.
             intros i H1 H2. specialize (Hue i). rewrite has_ldiff, has_lor. split; [by right|]. naive_solver. }
           assert (incl_ev e (x .& rest P mm (wp_at (st_tree s) p) (KUser m))) as Hin2 by (clear - Hin Hi; bits).
           rewrite bool_decide_false.
           ++ eexists. split; [done|]. clear - Hin2. bits.
           ++ intros H0. rewrite H0 in Hin2. apply He. clear - Hin2. bits.
  - assert (nop_ok (NEvent (Create P) p0)) as Ho by (by apply HD').
    destruct (nstep_spec P HP sepc E s _ s' r HE Ho Ht Hs) as (Ht'&_&Hreg).
    assert (Create P ≠ Remove P) as Hcr.
    { intros Heq'. pose proof (pok_disj P HP 0 1 (Create P) (Remove P) eq_refl eq_refl ltac:(done)) as Hd.
      rewrite <-Heq' in Hd. apply (nz_cr P HP). clear - Hd. bits. }
    apply app_split_last' in Heq as [(->&->&[=])|(tr2'&->&->)].
    destruct (IH p n e) as (He&Hue&Hu&x&Hx&Hi).
    { exists tr1, tr2'. split_and!; [done|intros r' Hr'; apply (Hst r'); set_solver|intros q r' Hr'; apply (Hrm q r'); set_solver]. }
    simpl in Hreg. split_and!; [done|done|rewrite Hreg, decide_False by naive_solver; done|].
    simpl in Hs. injection Hs as <- <-.
    destruct (create_mono E s (Create P) p0 HE Ht Ho Hcr p x Hx) as (x'&Hx'&Hi'). exists x'. split; [done|]. clear - Hi Hi'. bits.
  - destruct (nstep_spec P HP sepc E s (NEvent (Remove P) p0) s' r HE Hg Ht Hs) as (Ht'&_&Hreg).
    apply app_split_last' in Heq as [(->&->&[=])|(tr2'&->&->)].
    destruct (IH p n e) as (He&Hue&Hu&x&Hx&Hi).
    { exists tr1, tr2'. split_and!; [done|intros r' Hr'; apply (Hst r'); set_solver|intros q r' Hr'; apply (Hrm q r'); set_solver]. }
    assert (¬ p0 `prefix_of` p) as Hnp by (apply (Hrm p0 r); set_solver).
    simpl in Hreg. split_and!; [done|done|rewrite Hreg, decide_False by naive_solver; done|].
    simpl in Hs. injection Hs as <- <-. destruct (rmdir_spec E s p0 HE Ht Hg) as [Hw _].
    exists x. split; [|done]. unfold rec_at. by rewrite Hw, decide_False.
Qed.

(** Every directory below a recursive watch in force has an OS watch for its events. *)
Lemma fexec_covered tr D s p n e q :
  fexec tr D s → in_force P tr p n e → q ∈ D → p `prefix_of` q →
  ∃ x, os_watches (st_log s) !! render q = Some (x, false) ∧ incl_ev (e .| Create P) x.
Proof.
  intros Hx Hf Hq Hpq. destruct (fexec_in_force _ _ _ _ _ _ Hx Hf) as (He&Hue&_&r&Hr&Hi).
  destruct (fexec_inv _ _ _ Hx) as (HD&Ht&[H0 Hc]&_).
  destruct (nexec_osi P HP sepc tr s (fexec_where _ _ _ Hx)) as [_ Hosi].
  assert (p ≠ []) as Hp0 by (intros ->; congruence).
  assert (p ∈ D) as HpD by (by eapply dirs_prefix).
  destruct (Hc p q r HpD Hq Hpq Hr) as (r'&Hr'&Hi').
  assert (incl_ev (e .| Create P) (total P (wp_at (st_tree s) q))) as Htot.
  { unfold total. rewrite others_split_rec. unfold rec_at in Hr'. rewrite (wget_Some _ _ _ Hr').
    pose proof (d_cr_int P HP) as Hd. unfold user_ev in Hue. clear - Hi Hi' Hd Hue. bits. }
  exists (total P (wp_at (st_tree s) q)). split; [|done].
  rewrite (oi_tab _ _ _ Hosi) by (by apply HD in Hq as (_&?&_)). apply opt_ev_nz.
  apply (nz_incl_create P HP). clear - Htot. bits.
Qed.
End cov.
