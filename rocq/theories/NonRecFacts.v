(** * NonRecFacts: invariants of the non-recursive tree (unix) *)
From Verif Require Import Base Event Watchpoint WatchpointFacts Paths PathsFacts Loop LoopFacts
  Node NodeFacts SpecTree WalkFacts RootFacts NonRec NonRecWp SpecNonRec.
Local Open Scope N_scope.

Section nonrec.
Context (P : platform) (HP : platform_ok P) (sepc : ascii).
Notation render := (render sepc).
Notation nenv := (nenv P sepc).
Notation wp_ok := (wp_ok P).
Notation recbits := (recbits P).

Record tinv (t : tree) : Prop := {
  ti_wf : tree_wf sepc false t;
  ti_comps : ∀ p, is_Some (t !! p) → comps_ok sepc p;
  ti_wp : ∀ p nd, t !! p = Some nd → ∃ wp, nwatch nd = Some wp ∧ wp_ok wp;
}.
Lemma tinv_wp_at t p : tinv t → wp_ok (wp_at t p).
Proof.
  intros Ht. unfold wp_at. destruct (t !! p) as [nd|] eqn:E; [|apply wp_ok_empty].
  by destruct (ti_wp _ Ht _ _ E) as (wp&->&?).
Qed.
Lemma tinv_closed t : tinv t → closed t.
Proof. intros Ht. exact (twf_closed _ _ _ (ti_wf _ Ht)). Qed.
Lemma tinv_name t p : tinv t → [] ∉ p → is_Some (t !! p) → name_at t p = render p.
Proof. intros Ht Hp Hs. by rewrite (name_at_wf sepc false) by (done || apply Ht). Qed.

Lemma tinv_set_wp t h wp : tinv t → wp_ok wp → tinv (set_wp t h wp).
Proof.
  intros [[Hr Hc Hn] Hk Hw] Hwp. split; [split| |].
  - by apply set_wp_is_Some.
  - intros p k. rewrite !set_wp_is_Some. apply Hc.
  - intros p nd. rewrite lookup_set_wp. case_decide as E; [|apply Hn].
    subst p. destruct (t !! h) as [nd'|] eqn:E; [|done]. intros [= <-]. simpl. by apply Hn.
  - intros p. rewrite set_wp_is_Some. apply Hk.
  - intros p nd. rewrite lookup_set_wp. case_decide as E; [|apply Hw].
    subst p. destruct (t !! h) as [nd'|] eqn:E; [|done]. intros [= <-]. simpl. eauto.
Qed.
Lemma tinv_init : tinv (st_tree init_st).
Proof.
  split; [split| |]; simpl.
  - by rewrite lookup_singleton.
  - intros p k. destruct p; rewrite lookup_singleton_ne by done; by intros [].
  - intros p nd [<- <-]%lookup_singleton_Some _. done.
  - intros p [nd [<- <-]%lookup_singleton_Some]. constructor.
  - intros p nd [<- <-]%lookup_singleton_Some. exists ∅. split; [done|]. apply wp_ok_empty.
Qed.

Lemma node_wadd_spec E s h c e :
  e_plat E = P → tinv (st_tree s) → is_Some (st_tree s !! h) →
  node_wadd E s h c e =
    (with_tree s (set_wp (st_tree s) h (wadd P (wp_at (st_tree s) h) c e).1),
     (wadd P (wp_at (st_tree s) h) c e).2).
Proof.
  intros HE Ht [nd Hnd]. unfold node_wadd. rewrite HE.
  destruct (wadd P (wp_at (st_tree s) h) c e) as [wp d]. rewrite Hnd. simpl.
  by destruct (ti_wp _ Ht _ _ Hnd) as (wp'&->&_).
Qed.

(** ** Growing the internal channel's entries *)
(** From [t] to [t'] nodes may have been added (empty) and the internal entry of
    some nodes extended by [x]; nothing else. *)
Record grow (x : N) (t t' : tree) : Prop := {
  gr_nodes : ∀ p, is_Some (t !! p) → is_Some (t' !! p);
  gr_name : ∀ p, is_Some (t !! p) → name_at t' p = name_at t p;
  gr_user : ∀ p k, k ≠ KNil → k ≠ KRec → wp_at t' p !! k = wp_at t p !! k;
  gr_rec : ∀ p, wp_at t' p !! KRec = wp_at t p !! KRec ∨
                wp_at t' p !! KRec = Some (wget (wp_at t p) KRec .| x);
}.
Lemma grow_refl x t : grow x t t.
Proof. split; auto. Qed.
Lemma grow_trans x t1 t2 t3 : grow x t1 t2 → grow x t2 t3 → grow x t1 t3.
Proof.
  intros H1 H2. split.
  - intros p Hp. by apply (gr_nodes _ _ _ H2), (gr_nodes _ _ _ H1).
  - intros p Hp. rewrite (gr_name _ _ _ H2), (gr_name _ _ _ H1); [done|done|]. by apply (gr_nodes _ _ _ H1).
  - intros p k Hk Hk'. by rewrite (gr_user _ _ _ H2), (gr_user _ _ _ H1).
  - intros p. destruct (gr_rec _ _ _ H2 p) as [->| ->]; [apply (gr_rec _ _ _ H1)|]. right. f_equal.
    unfold wget at 1. destruct (gr_rec _ _ _ H1 p) as [->| ->]; simpl; [done|].
    change (default 0 (wp_at t1 p !! KRec)) with (wget (wp_at t1 p) KRec). clear. bits.
Qed.
Lemma grow_rec_mono x t t' p : grow x t t' → incl_ev (wget (wp_at t p) KRec) (wget (wp_at t' p) KRec).
Proof.
  intros H. unfold wget at 2. destruct (gr_rec _ _ _ H p) as [->| ->]; simpl; [by intros i|].
  clear. bits.
Qed.
(** Adding empty nodes. *)
Lemma grow_extends x t t' :
  (∀ q nd, t !! q = Some nd → t' !! q = Some nd) →
  (∀ q nd, t !! q = None → t' !! q = Some nd → ∃ nm, nd = newnode nm) →
  grow x t t'.
Proof.
  intros H1 H2.
  assert (∀ p, wp_at t' p = wp_at t p) as Hw.
  { intros p. unfold wp_at. destruct (t !! p) as [nd|] eqn:E; [by rewrite (H1 _ _ E)|].
    destruct (t' !! p) as [nd|] eqn:E'; [|done]. by destruct (H2 _ _ E E') as [nm ->]. }
  split.
  - intros p [nd Hp]. by rewrite (H1 _ _ Hp).
  - intros p [nd Hp]. unfold name_at. by rewrite Hp, (H1 _ _ Hp).
  - intros. by rewrite Hw.
  - intros. rewrite Hw. by left.
Qed.
Lemma grow_set_rec x t h :
  grow x t (set_wp t h (wadd P (wp_at t h) KRec x).1).
Proof.
  split.
  - intros p. by rewrite set_wp_is_Some.
  - intros p _. by rewrite name_at_set_wp.
  - intros p k Hk Hk'. rewrite wp_at_set_wp. case_decide as E; [|done]. destruct E as [-> _].
    rewrite wadd_get by done. by rewrite bool_decide_false.
  - intros p. rewrite wp_at_set_wp. case_decide as E; [|by left]. destruct E as [-> _].
    right. rewrite wadd_get by done. by rewrite bool_decide_true.
Qed.

(** ** recFunc *)
Definition recx (e : N) : N := e .| omit P .| Create P.
Lemma recx_bits e : incl_ev (recursive P) e → incl_ev recbits (recx e).
Proof. unfold recx, NonRecWp.recbits. intros H. clear - H. bits. Qed.
Lemma wp_ok_wadd_rec wp e :
  u32 e → incl_ev (recursive P) e → wp_ok wp → wp_ok (wadd P wp KRec (recx e)).1.
Proof.
  intros H32 Hr Hwp. apply wp_ok_wadd; [done| | |done|done].
  - unfold recx. apply u32_lor; [apply u32_lor|]; [done|by apply u32_omit|by apply u32_create].
  - intros _. pose proof (recx_bits e Hr) as H. clear - H. bits.
Qed.

(** The call a node update triggers. *)
Definition call_for (nm : str) (d : eventDiff) : option wcall :=
  if is_none d then None
  else if d.2 =? 0 then Some (WUnwatch nm)
  else if d.1 =? 0 then Some (WWatch nm d.2)
  else Some (WRewatch nm d.1 d.2).
Definition upd (E : env) (s : st) (h : path) (wp : watchpoint) (d : eventDiff) : st :=
  let s := with_tree s (set_wp (st_tree s) h wp) in
  match call_for (name_at (st_tree s) h) d with
  | None => s
  | Some c => (wcallf E s c).1
  end.
Lemma upd_tree E s h wp d : st_tree (upd E s h wp d) = set_wp (st_tree s) h wp.
Proof. unfold upd. by destruct (call_for _ _). Qed.
Lemma upd_panic E s h wp d : st_panic (upd E s h wp d) = st_panic s.
Proof. unfold upd. by destruct (call_for _ _). Qed.
Lemma upd_tick E s h wp d : st_tick (upd E s h wp d) = st_tick s.
Proof. unfold upd. by destruct (call_for _ _). Qed.

Lemma wadd_diff_nz wp c e :
  c ≠ KNil → agg_ok P wp → is_none (wadd P wp c e).2 = false → (wadd P wp c e).2.2 ≠ 0.
Proof.
  intros Hc Ha Hn. destruct (wadd_diff P wp c e Hc Ha) as [[_ Hd]|[Hne Hd]].
  { rewrite Hd in Hn. done. }
  rewrite Hd. cbn [snd]. rewrite total_wadd in Hne |- * by done. intros Hz. apply Hne.
  assert (total P wp = 0) as H0 by (clear - Hz; bits). by rewrite H0, <-Hz at 1.
Qed.

Lemma recFunc_spec E e s h :
  e_plat E = P → tinv (st_tree s) → is_Some (st_tree s !! h) →
  recFunc E e s h =
    (upd E s h (wadd P (wp_at (st_tree s) h) KRec (recx e)).1 (wadd P (wp_at (st_tree s) h) KRec (recx e)).2, CNil).
Proof.
  intros HE Ht Hh. unfold recFunc. rewrite HE. change (e .| omit P .| Create P) with (recx e).
  rewrite node_wadd_spec by done. unfold upd, call_for.
  set (d := (wadd P (wp_at (st_tree s) h) KRec (recx e)).2).
  destruct (is_none d) eqn:En; [done|].
  destruct (N.eqb_spec d.2 0) as [Hz|Hz].
  { exfalso. eapply (wadd_diff_nz (wp_at (st_tree s) h) KRec (recx e)); [done| |exact En|exact Hz].
    by apply tinv_wp_at. }
  destruct (d.1 =? 0); done.
Qed.

(** ** AddDir *)
Section adddir.
Context (E : env) (HE : nenv E).

Lemma joinpath_key dir nm :
  nm ≠ [] → sepc ∉ nm → sepc ∉ drop (length dir + 1) (joinpath sepc dir nm).
Proof.
  intros Hn Hs. unfold joinpath. case_decide as Ed.
  - subst dir. simpl. intros Hin. apply Hs.
    destruct nm as [|c nm]; [done|]. simpl in Hin. by right.
  - replace (dir ++ sepc :: nm) with ((dir ++ [sepc]) ++ nm) by (by rewrite <-app_assoc).
    replace (length dir + 1)%nat with (length (dir ++ [sepc])) by (rewrite app_length; simpl; lia).
    by rewrite drop_app.
Qed.
Lemma joinpath_good h nm :
  [] ∉ h → drop (length (render h) + 1) (joinpath sepc (render h) nm) = nm ∧
    joinpath sepc (render h) nm = render (h ++ [nm]).
Proof.
  intros Hh. unfold joinpath. rewrite decide_False.
  - rewrite render_snoc. split; [|done].
    replace (render h ++ sepc :: nm) with ((render h ++ [sepc]) ++ nm) by (by rewrite <-app_assoc).
    replace (length (render h) + 1)%nat with (length (render h ++ [sepc])) by (rewrite app_length; simpl; lia).
    by rewrite drop_app.
  - destruct h as [|c h]; [done|]. rewrite render_cons. intros [= H1].
    apply app_eq_nil in H1 as [-> _]. set_solver.
Qed.

Record added (t : tree) (h : path) (ents : list dirent) (t' : tree) (qs : list path) : Prop := {
  ad_ext : ∀ q nd, t !! q = Some nd → t' !! q = Some nd;
  ad_new : ∀ q nd, t !! q = None → t' !! q = Some nd →
    ∃ k nm, q = h ++ [k] ∧ sepc ∉ k ∧ q ∈ qs ∧ nd = newnode nm ∧ ([] ∉ q → nm = render q);
  ad_qs : ∀ q, q ∈ qs → is_Some (t' !! q) ∧ ∃ k, q = h ++ [k];
  ad_all : [] ∉ h → ∀ de, de ∈ ents → de_dir de = true → de_symlink de = false → h ++ [de_name de] ∈ qs;
  ad_only : [] ∉ h → ∀ q, q ∈ qs → ∃ de, de ∈ ents ∧ de_dir de = true ∧ de_symlink de = false ∧ q = h ++ [de_name de];
}.
Lemma adddir_children_spec t h ents :
  tinv t → is_Some (t !! h) → Forall (dirent_ok sepc) ents →
  added t h ents (adddir_children E t h ents).1 (adddir_children E t h ents).2.
Proof.
  intros Ht Hh Hok. unfold adddir_children.
  assert (added t h [] t []) as H0.
  { split; try done; [naive_solver| | |]; set_solver. }
  assert (∀ done' t1 l, added t h done' t1 l → added t h (done' ++ ents)
    (foldl (λ '(t, l) de, if de_dir de && negb (de_symlink de) then
      let dir := name_at t h in let name := joinpath (e_sep E) dir (de_name de) in
      let '(t, q) := addchild t h name (drop (length dir + 1) name) in (t, l ++ [q]) else (t, l)) (t1, l) ents).1
    (foldl (λ '(t, l) de, if de_dir de && negb (de_symlink de) then
      let dir := name_at t h in let name := joinpath (e_sep E) dir (de_name de) in
      let '(t, q) := addchild t h name (drop (length dir + 1) name) in (t, l ++ [q]) else (t, l)) (t1, l) ents).2) as Hgen.
  2:{ by apply (Hgen []). }
  clear H0. induction ents as [|de ents IH]; intros done' t1 l Had; [by rewrite app_nil_r|].
  apply Forall_cons in Hok as [Hde Hok]. specialize (IH Hok).
  replace (done' ++ de :: ents) with ((done' ++ [de]) ++ ents) by (by rewrite <-app_assoc).
  rewrite (ne_sep _ _ _ HE) in *. cbn [foldl].
  destruct (de_dir de && negb (de_symlink de)) eqn:Er; cbn zeta.
  2:{ apply IH. destruct Had as [A1 A2 A3 A4 A5]. split; try done.
    - intros Hn de' [Hin| ->%elem_of_list_singleton]%elem_of_app; [by apply A4|].
      intros Hd Hs. rewrite Hd, Hs in Er. done.
    - intros Hn q Hq. destruct (A5 Hn q Hq) as (de'&?&?). exists de'. split; [set_solver|done]. }
  apply andb_true_iff in Er as [Ed Es]. apply negb_true_iff in Es.
  assert (name_at t1 h = name_at t h) as Hname.
  { destruct Hh as [nd Hnd]. unfold name_at. by rewrite Hnd, (ad_ext _ _ _ _ _ Had _ _ Hnd). }
  rewrite Hname. set (name := joinpath sepc (name_at t h) (de_name de)).
  set (key := drop (length (name_at t h) + 1) name).
  rewrite (surjective_pairing (addchild t1 h name key)). rewrite addchild_snd.
  apply IH. destruct Hde as [Hde1 Hde2].
  assert (sepc ∉ key) as Hkey by (by apply joinpath_key).
  assert ([] ∉ h → key = de_name de ∧ name = render (h ++ [de_name de])) as Hgood.
  { intros Hn. unfold key, name. rewrite (tinv_name t h Ht Hn Hh). by apply joinpath_good. }
  destruct Had as [A1 A2 A3 A4 A5]. split.
  - intros q nd Hq. by rewrite lookup_addchild, (A1 _ _ Hq).
  - intros q nd Hq. rewrite lookup_addchild. destruct (t1 !! q) as [nd'|] eqn:E1.
    + intros [= ->]. destruct (A2 _ _ Hq E1) as (k&nm&?&?&?&?&?). exists k, nm. set_solver.
    + case_decide as Eq; [|done]. intros [= <-]. exists key, name. split_and!; [done|done|set_solver|done|].
      intros Hn. rewrite Eq in *. assert ([] ∉ h) as Hnh by set_solver.
      destruct (Hgood Hnh) as [-> ->]. done.
  - intros q [Hq| ->%elem_of_list_singleton]%elem_of_app.
    + destruct (A3 _ Hq) as [H1 H2]. split; [|done]. rewrite lookup_addchild. destruct H1 as [? ->]. eauto.
    + split; [|eauto]. rewrite lookup_addchild. destruct (t1 !! (h ++ [key])); [eauto|]. by rewrite decide_True.
  - intros Hn de' [Hin| ->%elem_of_list_singleton]%elem_of_app Hd Hs; apply elem_of_app.
    + left. by apply A4.
    + right. destruct (Hgood Hn) as [-> _]. set_solver.
  - intros Hn q [Hq| ->%elem_of_list_singleton]%elem_of_app.
    + destruct (A5 Hn _ Hq) as (de'&?&?). exists de'. split; [set_solver|done].
    + exists de. destruct (Hgood Hn) as [-> _]. set_solver.
Qed.

Lemma added_tinv t h ents t' qs : tinv t → is_Some (t !! h) → added t h ents t' qs → tinv t'.
Proof.
  intros [[Hr Hc Hn] Hk Hw] Hh [A1 A2 A3 A4 A5].
  assert (∀ q, is_Some (t !! q) → is_Some (t' !! q)) as Hs by (intros q [nd Hq]; eauto).
  assert (comps_ok sepc h) as Hch by (by apply Hk).
  split; [split| |].
  - by apply Hs.
  - intros p k [nd Hp]. destruct (t !! (p ++ [k])) as [nd'|] eqn:E1; [apply Hs, (Hc p k); eauto|].
    destruct (A2 _ _ E1 Hp) as (k'&nm&[-> _]%snoc_inj&_). by apply Hs.
  - intros p nd Hp Hnil. destruct (t !! p) as [nd'|] eqn:E1.
    + rewrite (A1 _ _ E1) in Hp. injection Hp as <-. by apply Hn.
    + destruct (A2 _ _ E1 Hp) as (k'&nm&?&?&?&->&Hnm). simpl. by apply Hnm.
  - intros p [nd Hp]. destruct (t !! p) as [nd'|] eqn:E1; [by apply Hk|].
    destruct (A2 _ _ E1 Hp) as (k'&nm&->&Hk'&_). apply Forall_app. split; [done|]. by constructor.
  - intros p nd Hp. destruct (t !! p) as [nd'|] eqn:E1.
    + rewrite (A1 _ _ E1) in Hp. injection Hp as <-. by apply Hw in E1.
    + destruct (A2 _ _ E1 Hp) as (k'&nm&?&?&?&->&Hnm). exists ∅. split; [done|]. apply wp_ok_empty.
Qed.
Lemma added_grow x t h ents t' qs : added t h ents t' qs → grow x t t'.
Proof.
  intros [A1 A2 A3 A4 A5]. apply grow_extends; [done|].
  intros q nd H1 H2. destruct (A2 _ _ H1 H2) as (?&nm&?&?&?&?&?). eauto.
Qed.

(** The loop: [I] is any further property of states kept by its two kinds of
    steps, [C] relates the popped nodes to the outcome. *)
Lemma adddir_loop e (I : st → list path → Prop) s h s' r :
  u32 e → incl_ev (recursive P) e →
  tinv (st_tree s) → is_Some (st_tree s !! h) →
  (∀ s h rest ents n, I s (h :: rest) → grow (recx e) (st_tree s) (st_tree (recFunc E e s h).1) → 
     tinv (st_tree s) → is_Some (st_tree s !! h) →
     let s1 := (recFunc E e s h).1 in
     e_readdir E n (name_at (st_tree s) h) = Some ents →
     added (st_tree s1) h ents (adddir_children E (st_tree s1) h ents).1 (adddir_children E (st_tree s1) h ents).2 →
     I (with_tree (ticked s1) (adddir_children E (st_tree s1) h ents).1)
       (reverse (adddir_children E (st_tree s1) h ents).2 ++ rest)) →
  (∀ s h rest, I s (h :: rest) → tinv (st_tree s) → is_Some (st_tree s !! h) → I (ticked (recFunc E e s h).1) []) →
  I s [h] →
  nd_adddir E (recFunc E e) s h = (s', r) →
  tinv (st_tree s') ∧ grow (recx e) (st_tree s) (st_tree s') ∧ st_panic s' = st_panic s ∧
  match r with LDone | LErr => I s' [] | LFuel => ∃ stack, I s' stack end.
Proof.
  intros H32 Hrec Ht Hh HI1 HI2 HI0 Hl. unfold nd_adddir in Hl.
  set (Inv := λ s1 stack, tinv (st_tree s1) ∧ grow (recx e) (st_tree s) (st_tree s1) ∧
    st_panic s1 = st_panic s ∧ (∀ p, p ∈ stack → is_Some (st_tree s1 !! p)) ∧ I s1 stack).
  assert (∀ s1 h1, tinv (st_tree s1) → is_Some (st_tree s1 !! h1) →
    tinv (st_tree (recFunc E e s1 h1).1) ∧ grow (recx e) (st_tree s1) (st_tree (recFunc E e s1 h1).1) ∧
    st_panic (recFunc E e s1 h1).1 = st_panic s1 ∧ recFunc E e s1 h1 = ((recFunc E e s1 h1).1, CNil)) as Hrf.
  { intros s1 h1 Ht1 Hh1. rewrite recFunc_spec by (done || apply HE). cbn [fst].
    rewrite upd_tree, upd_panic. split_and!; [|by apply grow_set_rec|done|done].
    apply tinv_set_wp; [done|]. apply wp_ok_wadd_rec; [done|done|]. by apply tinv_wp_at. }
  eapply (loop_ind _ Inv (λ s', Inv s' [])) in Hl.
  - destruct r; unfold Inv in Hl; naive_solver.
  - clear Hl. intros s1 x rest s2 l (Ht1&Hg&Hp&Hst&HI) Hs.
    assert (is_Some (st_tree s1 !! x)) as Hx by (apply Hst; left).
    destruct (Hrf s1 x Ht1 Hx) as (Ht2&Hg2&Hp2&Heq). unfold adddir_step in Hs.
    rewrite Heq in Hs. set (s1' := (recFunc E e s1 x).1) in *.
    destruct (e_readdir E (st_tick s1') (name_at (st_tree s1') x)) as [ents|] eqn:Er; [|done].
    simpl st_tree in Hs.
    assert (Forall (dirent_ok sepc) ents) as Hents.
    { rewrite <-(ne_sep _ _ _ HE). eapply eo_readdir; [|exact Er]. apply HE. }
    assert (is_Some (st_tree s1' !! x)) as Hx' by (by apply (gr_nodes _ _ _ Hg2)).
    pose proof (adddir_children_spec (st_tree s1') x ents Ht2 Hx' Hents) as Had.
    rewrite (surjective_pairing (adddir_children E (st_tree s1') x ents)) in Hs. injection Hs as <- <-.
    unfold Inv. cbn [st_tree with_tree ticked st_panic]. split_and!.
    + by eapply added_tinv.
    + eapply grow_trans; [exact Hg|]. eapply grow_trans; [exact Hg2|]. by eapply added_grow.
    + simpl. by rewrite Hp2.
    + intros p [Hin|Hin]%elem_of_app.
      * rewrite elem_of_reverse in Hin. by apply (ad_qs _ _ _ _ _ Had).
      * apply (gr_nodes 0 _ _ (added_grow 0 _ _ _ _ _ Had)). apply (gr_nodes _ _ _ Hg2). apply Hst. by right.
    + eapply HI1; [done..| |done]. rewrite <-(gr_name _ _ _ Hg2) by done. exact Er.
  - clear Hl. intros s1 x rest s2 (Ht1&Hg&Hp&Hst&HI) Hs.
    assert (is_Some (st_tree s1 !! x)) as Hx by (apply Hst; left).
    destruct (Hrf s1 x Ht1 Hx) as (Ht2&Hg2&Hp2&Heq). unfold adddir_step in Hs.
    rewrite Heq in Hs. set (s1' := (recFunc E e s1 x).1) in *.
    destruct (e_readdir E (st_tick s1') (name_at (st_tree s1') x)) as [ents|] eqn:Er.
    { destruct (adddir_children _ _ _ _). done. }
    injection Hs as <-. unfold Inv. cbn [st_tree ticked st_panic]. split_and!; [done| | |set_solver|].
    + by eapply grow_trans.
    + by rewrite Hp2.
    + by eapply HI2.
  - unfold Inv. split_and!; [done|apply grow_refl|done| |done].
    by intros p ->%elem_of_list_singleton.
Qed.
End adddir.
End nonrec.
