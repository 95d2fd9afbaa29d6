(** * NonRecBetween: the OS watches of the non-recursive tree between the calls of one
    operation.  A watch somebody needs before and after the operation is there, with the
    events, all the time in between. *)
From Verif Require Import Base Event Watchpoint WatchpointFacts Paths PathsFacts Loop LoopFacts
  Node NodeFacts SpecTree WalkFacts RootFacts NonRec NonRecWp SpecNonRec SpecNonRecOS SpecOS NonRecFacts NonRecOps NonRecReg NonRecStep NonRecOS.
Local Open Scope N_scope.

Section between.
Context (P : platform) (HP : platform_ok P) (sepc : ascii).
Notation render := (render sepc).
Notation nenv := (nenv P sepc).
Notation tinv := (tinv P sepc).
Notation osi := (osi P sepc).
Notation recx := (recx P).

(** The watch on [nm] is set and includes [x]. *)
Definition cov (nm : str) (x : N) (log : wlog) : Prop :=
  ∃ m r, os_watches log !! nm = Some (m, r) ∧ incl_ev x m.
Definition thru (nm : str) (x : N) (l0 l1 : wlog) : Prop :=
  ∀ l, l0 `prefix_of` l → l `prefix_of` l1 → cov nm x l.
Definition ext (Q : wcall → Prop) (l0 l1 : wlog) : Prop := ∃ l, l1 = l0 ++ l ∧ Forall (λ c, Q c.1) l.
Lemma ext_refl Q l : ext Q l l.
Proof. exists []. split; [by rewrite app_nil_r|constructor]. Qed.
Lemma ext_trans Q l1 l2 l3 : ext Q l1 l2 → ext Q l2 l3 → ext Q l1 l3.
Proof.
  intros (a&->&Ha) (c&->&Hc). exists (a ++ c). split; [by rewrite app_assoc|by apply Forall_app].
Qed.
Lemma ext_one (Q : wcall → Prop) l c ok : Q c → ext Q l (l ++ [(c, ok)]).
Proof. intros H. exists [(c, ok)]. split; [done|]. by repeat constructor. Qed.
Lemma prefix_snoc_inv {A} (l : list A) k x : l `prefix_of` k ++ [x] → l `prefix_of` k ∨ l = k ++ [x].
Proof.
  intros [r Hr]. destruct r as [|y r _] using rev_ind; [right; by rewrite app_nil_r in Hr|].
  rewrite app_assoc in Hr. apply app_inj_tail in Hr as [-> _]. left. by exists r.
Qed.
Lemma log_legal_app l1 l2 : log_legal P (l1 ++ l2) → log_legal P l1.
Proof. intros H a c ok r ->. eapply (H a c ok (r ++ l2)). by rewrite <-app_assoc. Qed.
Lemma prefix_both {A} (l : list A) k : l `prefix_of` k → k `prefix_of` l → l = k.
Proof. intros [a ->] [c Hc]. destruct a; [by rewrite app_nil_r|]. apply (f_equal length) in Hc. rewrite !app_length in Hc. simpl in Hc. lia. Qed.

(** Calls that only add events; calls that withdraw watches. *)
Definition adds (c : wcall) : Prop :=
  match c with WWatch _ _ => True | WRewatch _ a e => incl_ev a e | _ => False end.
Definition withdraws (c : wcall) : Prop := match c with WUnwatch _ => True | _ => False end.
Lemma adds_thru nm x l0 l1 : ext adds l0 l1 → log_legal P l1 → cov nm x l0 → thru nm x l0 l1.
Proof.
  intros (k&->&Hk) Hl H0. induction k as [|[c ok] k IH] using rev_ind.
  { rewrite app_nil_r. intros l H1 H2. by rewrite (prefix_both _ _ H2 H1). }
  apply Forall_app in Hk as [Hk [Hc _]%Forall_cons_1]. cbn [fst] in Hc. rewrite app_assoc in Hl. pose proof (log_legal_app _ _ Hl) as Hl0.
  specialize (IH Hk Hl0). rewrite app_assoc. intros l H1 [H2| ->]%prefix_snoc_inv; [by apply IH|].
  destruct (IH (l0 ++ k)) as (m&r&Hm&Hx); [by exists k|done|].
  pose proof (Hl (l0 ++ k) c ok [] eq_refl) as Hleg. unfold cov. rewrite os_watches_snoc.
  destruct ok; [|destruct c; simpl; eauto]. destruct c as [p e| |p a e| | |]; try done; simpl in *.
  - destruct Hleg as [Hn _]. rewrite lookup_insert_ne by congruence. eauto.
  - destruct Hleg as [Hn _]. destruct (decide (p = nm)) as [->|Hne].
    + rewrite lookup_insert. eexists _, _. split; [done|]. rewrite Hm in Hn. simpl in Hn. injection Hn as ->. clear - Hc Hx. bits.
    + rewrite lookup_insert_ne by done. eauto.
Qed.
Lemma withdraws_thru nm x l0 l1 : ext withdraws l0 l1 → cov nm x l1 → thru nm x l0 l1.
Proof.
  intros (k&->&Hk). induction k as [|[c ok] k IH] using rev_ind; intros H1.
  { rewrite app_nil_r in *. intros l Ha Hb. by rewrite (prefix_both _ _ Hb Ha). }
  apply Forall_app in Hk as [Hk [Hc _]%Forall_cons_1]. cbn [fst] in Hc. rewrite app_assoc in *.
  assert (cov nm x (l0 ++ k)) as H0.
  { destruct H1 as (m&r&Hm&Hx). rewrite os_watches_snoc in Hm. exists m, r. split; [|done].
    destruct c as [|p| | | |]; try done. destruct ok; simpl in Hm; [|done]. by apply lookup_delete_Some in Hm as [_ ?]. }
  intros l Ha [Hb| ->]%prefix_snoc_inv; [by apply IH|done].
Qed.

(** ** Watch and directory events other than removals add *)
Lemma upd_log E s h wp d : st_log (upd E s h wp d) =
  match call_for (name_at (st_tree s) h) d with None => st_log s | Some c => st_log s ++ [(c, e_W E (st_log s) c)] end.
Proof. unfold upd. cbn [st_tree with_tree]. rewrite name_at_set_wp. by destruct (call_for _ _). Qed.
Lemma call_adds nm wp k e c : k ≠ KNil → agg_ok P wp → call_for nm (wadd P wp k e).2 = Some c → adds c.
Proof.
  intros Hk Ha. pose proof (wadd_diff P wp k e Hk Ha) as Hd. pose proof (wadd_diff_nz P wp k e Hk Ha) as Hz.
  rewrite total_wadd in Hd by done. generalize dependent (wadd P wp k e).2. intros d Hd Hz. unfold call_for.
  destruct (is_none d) eqn:En; [done|]. rewrite (proj2 (N.eqb_neq _ _) (Hz eq_refl)).
  destruct (d.1 =? 0); intros Hc; injection Hc as <-; [done|]. cbn [adds].
  destruct Hd as [[_ ->]|[_ ->]]; [done|]. cbn [fst snd]. clear. bits.
Qed.
Lemma upd_adds E s h k e : k ≠ KNil → tinv (st_tree s) → 
  ext adds (st_log s) (st_log (upd E s h (wadd P (wp_at (st_tree s) h) k e).1 (wadd P (wp_at (st_tree s) h) k e).2)).
Proof.
  intros Hk Ht. rewrite upd_log. destruct (call_for _ _) as [c|] eqn:Ec; [|apply ext_refl]. apply ext_one.
  eapply call_adds; [exact Hk| |exact Ec]. eapply wo_agg. by eapply tinv_wp_at.
Qed.
Lemma recFunc_adds E e s h : nenv E → tinv (st_tree s) → is_Some (st_tree s !! h) → ext adds (st_log s) (st_log (recFunc E e s h).1).
Proof. intros HE Ht Hh. rewrite (recFunc_spec P sepc) by (done || apply HE). cbn [fst]. by apply upd_adds. Qed.
Lemma adddir_adds E e s h s' r :
  nenv E → u32 e → incl_ev (recursive P) e → tinv (st_tree s) → is_Some (st_tree s !! h) →
  nd_adddir E (recFunc E e) s h = (s', r) → ext adds (st_log s) (st_log s').
Proof.
  intros HE H32 Hrec Ht Hh Hl.
  destruct (adddir_loop P HP sepc E HE e (λ s1 _, ext adds (st_log s) (st_log s1)) s h s' r) as (_&_&_&HI); try done.
  - intros s1 p rest ents n HI _ Ht1 Hp1. cbn zeta. intros _ _. cbn [st_log with_tree ticked].
    eapply ext_trans; [exact HI|]. by apply recFunc_adds.
  - intros s1 p rest HI Ht1 Hp1. cbn [st_log ticked]. eapply ext_trans; [exact HI|]. by apply recFunc_adds.
  - apply ext_refl.
  - by destruct r as [| |]; [| |destruct HI].
Qed.
Lemma walk_adds E e s h s' r :
  nenv E → u32 e → incl_ev (recursive P) e → tinv (st_tree s) → is_Some (st_tree s !! h) →
  nd_walk E (recFunc E e) s h = (s', r) → ext adds (st_log s) (st_log s').
Proof.
  intros HE H32 Hrec Ht Hh Hl.
  destruct (walk_loop P HP sepc E HE e (λ s1 _, ext adds (st_log s) (st_log s1)) s h s' r) as (_&_&_&_&_&HI); try done.
  - intros s1 p rest ks HI Ht1 Hp1 _. cbn zeta. intros _. cbn [st_log ticked].
    eapply ext_trans; [exact HI|]. by apply recFunc_adds.
  - apply ext_refl.
Qed.
Lemma watch_adds E s h n e s' r :
  nenv E → tinv (st_tree s) → is_Some (st_tree s !! h) → u32 e → disj_ev e (omit P) →
  nr_watch E s h (KUser n) e = (s', r) → ext adds (st_log s) (st_log s').
Proof.
  intros HE Ht Hh H32 Hom Hw.
  destruct (nr_watch_cases P sepc E s h n e s' r) as [(->&Hok&->)|(->&c&wp'&Hc&HW&->&_)]; try done; try apply HE.
  - by apply upd_adds.
  - cbn [st_log]. apply ext_one. refine (call_adds _ _ (KUser n) e c _ _ Hc); [done|]. eapply wo_agg. by eapply tinv_wp_at.
Qed.
Lemma watchrec_adds E s h n e s' r :
  nenv E → tinv (st_tree s) → is_Some (st_tree s !! h) → u32 e → incl_ev (recursive P) e → disj_ev e (omit P) →
  nr_watchrec E s h (KUser n) e = (s', r) → ext adds (st_log s) (st_log s').
Proof.
  intros HE Ht Hh H32 Hrec Hom Hw.
  destruct (watchrec_spec P HP sepc E s h n e s' r) as (_&_&[(_&_&_&r'&_&Ha)|(->&s1&wp'&->&Ht1&Hh1&Hg&Hrg&Hc)]); try done.
  { by eapply adddir_adds. }
  cbn [st_log with_tree]. destruct Hc as [[-> ?]|[[_ Ha]|[_ Ha]]]; [apply ext_refl|by eapply adddir_adds|by eapply walk_adds].
Qed.
Lemma create_adds E s ev p : nenv E → tinv (st_tree s) → gpath sepc p → ev ≠ Remove P →
  ext adds (st_log s) (st_log (nr_internal E s (EI ev (render p) (Some true) fTypeDirectory))).
Proof.
  intros HE Ht Hg Hev.
  destruct (internal_create_cases P HP sepc E s ev p HE Ht Hg Hev) as [[-> _]|(q&t1&e&r&Hq&Hqe&_&Ht1&Hp1&_&_&_&Ha)]; [apply ext_refl|].
  assert (wp_ok P (wp_at (st_tree s) q)) as Hwq by (by eapply tinv_wp_at).
  eapply (adddir_adds E e (with_tree s t1)); try done.
  - by eapply wo_u32.
  - pose proof (wo_rec _ _ Hwq _ Hqe) as Hx. unfold recbits in Hx. clear - Hx. bits.
Qed.
(** ** Removals withdraw *)
Lemma remove_withdraws E s p : nenv E → tinv (st_tree s) → gpath sepc p →
  ext withdraws (st_log s) (st_log (nr_internal E s (EI (Remove P) (render p) (Some true) fTypeDirectory))).
Proof.
  intros HE Ht Hg. destruct (internal_remove_spec P HP sepc E s p HE Ht Hg) as [[-> _]|(s1&Hp&Hw&Htr&Hpan&->)]; [apply ext_refl|].
  cbn [st_log with_tree].
  set (fn := λ (s : st) (_ : N) (h : path), ((wcallf E s (WUnwatch (name_at (st_tree s) h))).1, CNil)) in *.
  destruct (ww_loop P sepc E HE fn (λ _ wp, wp) ltac:(done) ltac:(done)) with (I := λ s2 (_ : list path), ext withdraws (st_log s) (st_log s2))
    (s := s) (h := p) (s' := s1) (r := LDone) as (_&_&_&_&_&_&HI); try done.
  - intros s2 m h Ht2 Hh2 _. split_and!; [done| |done]. unfold fn. cbn [fst]. unfold wcallf. cbn [fst st_tree].
    symmetry. apply set_wp_same. intros nd Hnd. destruct (ti_wp _ _ _ Ht2 _ _ Hnd) as (wp&?&?). eauto.
  - intros s2 m q rest s3 ks HI _ _ _ _ _ _ _ [[-> _]|[-> _]] _ _; cbn [st_log ticked]; [done|].
    eapply ext_trans; [exact HI|]. unfold fn, wcallf. cbn [fst st_log]. by apply ext_one.
  - apply ext_refl.
Qed.
(** ** Stop *)
Lemma reg_cov s q n y x :
  osi s → comps_ok sepc q → wp_at (st_tree s) q !! KUser n = Some y → incl_ev x y → disj_ev x (internal P) → x ≠ 0 → cov (render q) x (st_log s).
Proof.
  intros Ho Hq Hy Hxy Hxi Hx0. unfold cov. rewrite (oi_tab _ _ _ Ho) by done.
  assert (incl_ev x (total P (wp_at (st_tree s) q))) as Hi.
  { intros i Hi. unfold total. apply has_ldiff. split; [|by intros ?; eapply Hxi]. apply has_others. exists (KUser n), y. split_and!; [done|done|by apply Hxy]. }
  exists (total P (wp_at (st_tree s) q)), false. split; [|done]. apply opt_ev_nz. intros Hz. rewrite Hz in Hi.
  apply nonzero_bit in Hx0 as [i Hi0]. apply Hi in Hi0. by apply has_0 in Hi0.
Qed.
Lemma upd_prefix E s h wp d : st_log s `prefix_of` st_log (upd E s h wp d).
Proof. rewrite upd_log. destruct (call_for _ _); [by eexists|done]. Qed.
Lemma upd_thru E s h wp d l0 nm x : thru nm x l0 (st_log s) → cov nm x (st_log (upd E s h wp d)) → thru nm x l0 (st_log (upd E s h wp d)).
Proof.
  intros H1 H2. rewrite upd_log in *. destruct (call_for _ _) as [c|]; [|done].
  intros l Ha [Hb| ->]%prefix_snoc_inv; [by apply H1|done].
Qed.
Lemma osi_lookup s s' q : osi s → osi s' → comps_ok sepc q → wp_at (st_tree s) q = wp_at (st_tree s') q →
  os_watches (st_log s) !! render q = os_watches (st_log s') !! render q.
Proof. intros Ho Ho' Hq Hw. by rewrite (oi_tab _ _ _ Ho), (oi_tab _ _ _ Ho'), Hw by done. Qed.
(** Stop goes to each path once: until then the watch is as before, from then on as after. *)
Lemma stop_thru E m s q x :
  nenv E → tinv (st_tree s) → osi s → reliable E → comps_ok sepc q →
  cov (render q) x (st_log s) → cov (render q) x (st_log (nr_Stop E s (KUser m))) →
  st_log s `prefix_of` st_log (nr_Stop E s (KUser m)) ∧ thru (render q) x (st_log s) (st_log (nr_Stop E s (KUser m))).
Proof.
  intros HE Ht Ho HW Hq. unfold nr_Stop.
  destruct (walkWatchpoint E (stop_fn E (KUser m)) s []) as [s' r] eqn:Ew. cbn [fst]. intros H0 H1.
  set (at_q := λ l, os_watches l !! render q).
  destruct (ww_loop P sepc E HE (stop_fn E (KUser m)) (stopf P m) (stopf_empty P m) (stopf_ok P HP m)
    (λ s m' h _ _ _, stop_tree P sepc E m s m' h HE)
    (λ s1 _, osi s1 ∧ st_log s `prefix_of` st_log s1 ∧
      ∀ l, st_log s `prefix_of` l → l `prefix_of` st_log s1 → at_q l = at_q (st_log s) ∨ at_q l = at_q (st_log s1)) s [] s' r)
    as (_&_&_&_&_&_&_&Hp&HI); try done.
  { apply Ht. }
  - intros s1 mm p rest s2 ks (Ho1&Hp1&HI) Ht1 Hpt1 Hm Hun _ _ _ [[-> _]|[-> Hne]] _ _; cbn [st_tree ticked st_log].
    { split_and!; [by apply osi_ticked|done..]. }
    rewrite (stop_upd P HP sepc) by done. set (wp' := stopf P m mm (wp_at (st_tree s1) p)). set (d := (wdelmin P mm (wp_at (st_tree s1) p) (KUser m) all32).2).
    assert (osi (upd E s1 p wp' d)) as Ho2.
    { apply osi_upd; try done.
      - apply nz_stopf; [done|by eapply tinv_wp_at|done|apply Ho1].
      - apply wdelmin_spec; [done|by eapply tinv_wp_at|done]. }
    split_and!; [by apply osi_ticked|etrans; [exact Hp1|apply upd_prefix]|].
    assert (∀ l, l `prefix_of` st_log (upd E s1 p wp' d) → l `prefix_of` st_log s1 ∨ l = st_log (upd E s1 p wp' d)) as Hpre.
    { intros l. rewrite upd_log. destruct (call_for _ _); [apply prefix_snoc_inv|by left]. }
    intros l Ha [Hb| ->]%Hpre; [|by right]. destruct (decide (q = p)) as [->|Hqp].
    + assert (at_q (st_log s1) = at_q (st_log s)) as Hz by (by apply osi_lookup). destruct (HI l Ha Hb) as [?| ->]; left; done.
    + assert (at_q (st_log (upd E s1 p wp' d)) = at_q (st_log s1)) as ->.
      { apply osi_lookup; try done. rewrite upd_tree, wp_at_set_wp. by rewrite decide_False by naive_solver. }
      by apply HI.
  - split_and!; [done|done|]. intros l Ha Hb. left. by rewrite (prefix_both _ _ Hb Ha).
  - split; [done|]. intros l Ha Hb. unfold cov. destruct (HI l Ha Hb) as [Hz|Hz]; unfold at_q in Hz; rewrite Hz; done.
Qed.
(** ** All operations *)
Lemma ext_prefix Q l0 l1 : ext Q l0 l1 → l0 `prefix_of` l1.
Proof. intros (k&->&_). by exists k. Qed.
Lemma nstep_adds E s o s' r : nenv E → nop_ok P sepc o → tinv (st_tree s) → nstep sepc E s o = (s', r) →
  (∀ n, o ≠ NStop n) → (∀ p, o ≠ NEvent (Remove P) p) → ext adds (st_log s) (st_log s').
Proof.
  intros HE Hok Ht Hs Hns Hnr. destruct o as [p isrec n e|n|ev p]; simpl in Hok, Hs; [|by destruct (Hns n)|].
  - destruct Hok as (Hu&H32&Hue). unfold nr_Watch in Hs.
    destruct (nr_add_spec P sepc E (st_tree s) p HE Ht Hu) as (t1&Hadd&Ht1&Hp1&Hw1&Hl1). rewrite Hadd in Hs.
    assert (disj_ev e (omit P)) as Hom by (clear - Hue; unfold user_ev, internal in *; bits).
    destruct isrec.
    + rewrite (ne_plat _ _ _ HE) in Hs. eapply (watchrec_adds E (with_tree s t1) p n (e .| recursive P)); try done.
      * apply u32_lor; [done|by apply u32_recursive].
      * clear. bits.
      * pose proof (d_re_om P HP) as Hd. clear - Hd Hom. bits.
    + by eapply (watch_adds E (with_tree s t1) p n e).
  - injection Hs as <- <-. apply create_adds; [done|done|done|]. intros ->. by apply (Hnr p).
Qed.
Lemma nstep_thru E s o s' r q x :
  nenv E → nop_ok P sepc o → os_good E o → tinv (st_tree s) → osi s → nstep sepc E s o = (s', r) → comps_ok sepc q →
  cov (render q) x (st_log s) → cov (render q) x (st_log s') →
  st_log s `prefix_of` st_log s' ∧ thru (render q) x (st_log s) (st_log s').
Proof.
  intros HE Hok Hg Ht Ho Hs Hq Hc Hc'.
  assert (osi s') as Ho' by (by eapply nstep_osi).
  assert ((∃ m, o = NStop m) ∨ ¬ ∃ m, o = NStop m) as [[m ->]|Hst] by (destruct o; [right|left; by eexists|right]; by intros [? ?]).
  { simpl in Hs. injection Hs as <- <-. by apply stop_thru. }
  assert ((∃ p, o = NEvent (Remove P) p) ∨ ¬ ∃ p, o = NEvent (Remove P) p) as [[p ->]|Hrm].
  { destruct o as [| |ev p]; [right; by intros [? ?]..|]. destruct (decide (ev = Remove P)) as [->|]; [left; by eexists|right; intros [? [= ? ?]]; done]. }
  { simpl in Hs. injection Hs as <- <-. pose proof (remove_withdraws E s p HE Ht Hok) as He.
    split; [by eapply ext_prefix|by apply withdraws_thru]. }
  assert (ext adds (st_log s) (st_log s')) as He.
  { eapply nstep_adds; try done; intros ? ->; [apply Hst|apply Hrm]; eauto. }
  split; [by eapply ext_prefix|]. apply adds_thru; [done|apply Ho'|done].
Qed.
End between.
