(** * LawsFacts: subscriptions of related histories; repeated calls *)
From Verif Require Import Base Event Watchpoint WatchpointFacts Paths PathsFacts Loop LoopFacts Node NodeFacts SpecTree WalkFacts RootFacts
  NonRec NonRecWp SpecNonRec NonRecFacts NonRecOps NonRecReg NonRecStep NonRecOS SpecNonRecOS NonRecCov
  Clean SpecClean Rec SpecRec Api SpecApi ApiFacts.
Local Open Scope N_scope.

(** ** Subscriptions *)
Section trace.
Context (P : platform).
Notation trace := (list (acall * outcome)).
(** What both [subscribed] and [subscribed_rec] say. *)
Definition by_watch (f : fsys → option str → str → list N → Prop) (tr : trace) (n : positive) (q : path) : Prop :=
  ∃ tr1 tr2 fs cwd p ev, tr = tr1 ++ (AWatch fs cwd p (Some n) ev, ORet ROk) :: tr2 ∧ f fs cwd p ev ∧ kept P tr2 n q.
Lemma subscribed_by tr n q i :
  subscribed P tr n q i ↔ by_watch (λ fs cwd p ev, (∃ isrec, denotes fs cwd p isrec q) ∧ ∃ e, e ∈ ev ∧ has e i) tr n q.
Proof.
  split.
  - intros (tr1&tr2&fs&cwd&p&isrec&ev&?&?&?&?). exists tr1, tr2, fs, cwd, p, ev. split_and!; eauto.
  - intros (tr1&tr2&fs&cwd&p&ev&?&[[isrec ?] ?]&?). by exists tr1, tr2, fs, cwd, p, isrec, ev.
Qed.
Lemma subscribed_rec_by tr n q :
  subscribed_rec P tr n q ↔ by_watch (λ fs cwd p ev, denotes fs cwd p true q ∧ ev ≠ []) tr n q.
Proof.
  split.
  - intros (tr1&tr2&fs&cwd&p&ev&?&?&?&?). by exists tr1, tr2, fs, cwd, p, ev.
  - intros (tr1&tr2&fs&cwd&p&ev&?&[? ?]&?). by exists tr1, tr2, fs, cwd, p, ev.
Qed.
Lemma kept_app x y n q : kept P (x ++ y) n q ↔ kept P x n q ∧ kept P y n q.
Proof.
  unfold kept. setoid_rewrite elem_of_app. split.
  - intros [H1 H2]. split; (split; [intros r Hr; apply (H1 r)|intros p r Hr; apply (H2 p r)]); auto.
  - intros [[H1 H2] [H3 H4]]. split; [intros r [Hr|Hr]; [by apply (H1 r)|by apply (H3 r)]|].
    intros p r [Hr|Hr]; [by apply (H2 p r)|by apply (H4 p r)].
Qed.
Lemma by_watch_app f x y n q : by_watch f (x ++ y) n q ↔ (by_watch f x n q ∧ kept P y n q) ∨ by_watch f y n q.
Proof.
  split.
  - intros (tr1&tr2&fs&cwd&p&ev&Heq&Hf&Hk).
    apply app_eq_inv in Heq as [(k&->&Hy)|(k&->&Hy)].
    + destruct k as [|z k].
      * simpl in Hy. rewrite app_nil_r. right. exists [], tr2, fs, cwd, p, ev. by split_and!.
      * simpl in Hy. injection Hy as <- ->. apply kept_app in Hk as [Hk1 Hk2]. left. split; [|done]. by exists tr1, k, fs, cwd, p, ev.
    + right. by exists k, tr2, fs, cwd, p, ev.
  - intros [[(tr1&tr2&fs&cwd&p&ev&->&Hf&Hk) Hk']|(tr1&tr2&fs&cwd&p&ev&->&Hf&Hk)].
    + exists tr1, (tr2 ++ y), fs, cwd, p, ev. rewrite <-app_assoc. split_and!; [done|done|]. by apply kept_app.
    + exists (x ++ tr1), tr2, fs, cwd, p, ev. by rewrite app_assoc.
Qed.
Lemma by_watch_cons f x l n q : by_watch f (x :: l) n q ↔ (by_watch f [x] n q ∧ kept P l n q) ∨ by_watch f l n q.
Proof. apply (by_watch_app f [x] l). Qed.
Lemma kept_nil n q : kept P [] n q.
Proof. split; [intros r H|intros p r H]; by apply elem_of_nil in H. Qed.
Lemma by_watch_nil f n q : ¬ by_watch f [] n q.
Proof. by intros ([|]&?&?&?&?&?&?&_). Qed.
Lemma by_watch_1 f x n q : by_watch f [x] n q ↔ ∃ fs cwd p ev, x = (AWatch fs cwd p (Some n) ev, ORet ROk) ∧ f fs cwd p ev.
Proof.
  split.
  - intros (tr1&tr2&fs&cwd&p&ev&Heq&Hf&Hk). destruct tr1 as [|y tr1]; [|by destruct tr1].
    injection Heq as -> _. eauto 10.
  - intros (fs&cwd&p&ev&->&Hf). exists [], [], fs, cwd, p, ev. split_and!; [done|done|apply kept_nil].
Qed.
(** Only Watch calls. *)
Definition watches (l : trace) : Prop := Forall (λ x, ∃ fs cwd p c ev, x.1 = AWatch fs cwd p c ev) l.
Lemma kept_watches l n q : watches l → kept P l n q.
Proof.
  intros H. unfold watches in H. rewrite Forall_forall in H.
  split; [intros r Hr|intros p r Hr]; destruct (H _ Hr) as (?&?&?&?&?&?); done.
Qed.
Lemma by_watch_watches f l n q : watches l →
  by_watch f l n q ↔ ∃ fs cwd p ev, (AWatch fs cwd p (Some n) ev, ORet ROk) ∈ l ∧ f fs cwd p ev.
Proof.
  induction l as [|x l IH]; intros Hw.
  { split; [by intros ?%by_watch_nil|]. intros (?&?&?&?&H&_). by apply elem_of_nil in H. }
  apply Forall_cons_1 in Hw as [Hx Hl]. rewrite by_watch_cons, by_watch_1, IH by done. setoid_rewrite elem_of_cons. split.
  - intros [[(fs&cwd&p&ev&->&Hf) _]|(fs&cwd&p&ev&?&?)]; exists fs, cwd, p, ev; auto.
  - intros (fs&cwd&p&ev&[<-|Hin]&Hf); [left; split; [eauto 10|by apply kept_watches]|right; eauto 10].
Qed.

(** The events of [f] may be divided among calls. *)
Definition additive (f : fsys → option str → str → list N → Prop) : Prop :=
  ∀ fs cwd p x y, f fs cwd p (x ++ y) ↔ f fs cwd p x ∨ f fs cwd p y.
Definition same_subs (n : positive) (tr tr' : trace) : Prop :=
  ∀ f q, additive f → by_watch f tr n q ↔ by_watch f tr' n q.
Lemma same_subs_subscribed n tr tr' q i : same_subs n tr tr' → subscribed P tr n q i ↔ subscribed P tr' n q i.
Proof.
  intros H. rewrite !subscribed_by. apply H. intros fs cwd p x y. setoid_rewrite elem_of_app. split.
  - intros [Hd (e&[He|He]&Hi)]; [left|right]; eauto 10.
  - intros [[Hd (e&He&Hi)]|[Hd (e&He&Hi)]]; eauto 10.
Qed.
Lemma same_subs_rec n tr tr' q : same_subs n tr tr' → subscribed_rec P tr n q ↔ subscribed_rec P tr' n q.
Proof.
  intros H. rewrite !subscribed_rec_by. apply H. intros fs cwd p x y. split.
  - intros [Hd Hne]. destruct x; [right|left]; by split.
  - intros [[Hd Hne]|[Hd Hne]]; (split; [done|]); [by destruct x|]. intros [_ ?]%app_eq_nil. done.
Qed.
(** Histories that differ in the middle. *)
Lemma same_subs_mid n a x x' z :
  same_subs n (a ++ x) (a ++ x') → same_subs n (a ++ x ++ z) (a ++ x' ++ z).
Proof.
  intros H f q Hf. rewrite !app_assoc, !(by_watch_app f _ z). by rewrite (H f q Hf).
Qed.
Lemma same_subs_order n a l l' : watches l → l ≡ₚ l' → same_subs n (a ++ l) (a ++ l').
Proof.
  intros Hw Hp f q _. assert (watches l') as Hw' by (unfold watches in *; by rewrite <-Hp).
  rewrite !(by_watch_app f a), (by_watch_watches f l), (by_watch_watches f l') by done.
  assert (∀ x : acall * outcome, x ∈ l ↔ x ∈ l') as Hx by (intros x; by rewrite Hp). setoid_rewrite Hx.
  pose proof (kept_watches l n q Hw). pose proof (kept_watches l' n q Hw'). tauto.
Qed.
Lemma same_subs_split n a fs cwd p c x y :
  same_subs n (a ++ [(AWatch fs cwd p c (x ++ y), ORet ROk)])
    (a ++ [(AWatch fs cwd p c x, ORet ROk); (AWatch fs cwd p c y, ORet ROk)]).
Proof.
  intros f q Hf. rewrite !(by_watch_app f a).
  assert (∀ l, watches l → kept P l n q) as Hk by (intros; by apply kept_watches).
  assert (watches [(AWatch fs cwd p c (x ++ y), ORet ROk)]) as H1 by (constructor; [eauto 10|constructor]).
  assert (watches [(AWatch fs cwd p c x, ORet ROk); (AWatch fs cwd p c y, ORet ROk)]) as H2
    by (do 2 (constructor; [eauto 10|]); constructor).
  rewrite (by_watch_watches f _ n q H1), (by_watch_watches f _ n q H2). split; (intros [[Ha _]|(fs'&cwd'&p'&ev&Hin&Hfe)]; [left; split; [done|by apply Hk]|right]).
  - apply elem_of_list_singleton in Hin. injection Hin as -> -> -> <- ->. apply Hf in Hfe as [Hfe|Hfe].
    + exists fs, cwd, p, x. split; [left|done].
    + exists fs, cwd, p, y. split; [right; left|done].
  - exists fs, cwd, p, (x ++ y). apply elem_of_cons in Hin as [Hin|Hin%elem_of_list_singleton].
    + injection Hin as -> -> -> <- ->. split; [left|]. apply Hf. by left.
    + injection Hin as -> -> -> <- ->. split; [left|]. apply Hf. by right.
Qed.
(** What channel [n] did before it was stopped does not matter. *)
Definition not_by (n : positive) (x : acall * outcome) : Prop :=
  match x.1 with AWatch _ _ _ (Some m) _ => m ≠ n | _ => True end.
Global Instance not_by_dec n x : Decision (not_by n x).
Proof. unfold not_by. destruct x as [[? ? ? [m|] ?|?|? ?] ?]; apply _. Defined.
Lemma kept_not_by n m l q : kept P (filter (not_by n) l) m q ↔ kept P l m q.
Proof.
  unfold kept. setoid_rewrite elem_of_list_filter. split.
  - intros [H1 H2]. split; [intros r Hr; by apply (H1 r)|intros p r Hr; by apply (H2 p r)].
  - intros [H1 H2]. split; [intros r [_ Hr]; by apply (H1 r)|intros p r [_ Hr]; by apply (H2 p r)].
Qed.
Lemma by_watch_not_by f n m l q : m ≠ n → by_watch f (filter (not_by n) l) m q ↔ by_watch f l m q.
Proof.
  intros Hm. induction l as [|x l IH]; [done|]. rewrite (by_watch_cons f x l), filter_cons.
  destruct (decide (not_by n x)) as [Hx|Hx].
  - by rewrite (by_watch_cons f x (filter _ _)), IH, kept_not_by.
  - rewrite IH, by_watch_1. split; [by right|]. intros [[(fs&cwd&p&ev&->&_) _]|?]; [|done]. by destruct Hx.
Qed.
Lemma same_subs_forget m n r a z : same_subs m (filter (not_by n) a ++ (AStop n, r) :: z) (a ++ (AStop n, r) :: z).
Proof.
  intros f q Hf. rewrite !(by_watch_app f _ (_ :: z)). destruct (decide (m = n)) as [->|Hm].
  - assert (¬ kept P ((AStop n, r) :: z) n q) as Hk by (intros [H _]; apply (H r); left). tauto.
  - by rewrite by_watch_not_by.
Qed.
Lemma same_subs_stop n m r a b :
  (∀ fs cwd p ev, (AWatch fs cwd p (Some m) ev, ORet ROk) ∉ b) →
  same_subs n (a ++ (AStop m, r) :: b ++ [(AStop m, r)]) (a ++ (AStop m, r) :: b).
Proof.
  intros Hb f q Hf. rewrite app_comm_cons, app_assoc, (by_watch_app f _ [_]), by_watch_1.
  destruct (decide (n = m)) as [->|Hn].
  - assert (¬ by_watch f (a ++ (AStop m, r) :: b) m q) as Hno.
    { rewrite by_watch_app. intros [[_ [H _]]|H]; [apply (H r); left|].
      destruct H as ([|x tr1]&tr2&fs&cwd&p&ev&Heq&_); [done|]. injection Heq as _ ->. apply (Hb fs cwd p ev).
      apply elem_of_app. right. left. }
    split; [intros [[? _]|(?&?&?&?&?&_)]; done|done].
  - split; [intros [[? _]|(?&?&?&?&?&_)]; done|]. intros H. left. split; [done|]. split; [|by intros p r' [=]%elem_of_list_singleton].
    intros r' Hr%elem_of_list_singleton. congruence.
Qed.
End trace.

(** ** The non-recursive tree *)
Section state.
Context (P : platform) (HP : platform_ok P) (sepc : ascii).
Notation render := (render sepc).
Notation nenv := (nenv P sepc).
Notation tinv := (tinv P sepc).
Notation wp_ok := (wp_ok P).
Notation nexec := (nexec P sepc).
Notation gpath := (gpath sepc).
Notation nop_ok := (nop_ok P sepc).
Notation nstep := (nstep sepc).

Lemma wadd_same wp c w e : wp_ok wp → c ≠ KNil → wp !! c = Some w → incl_ev e w → wadd P wp c e = (wp, none).
Proof.
  intros Hwp Hc Hw Hi. assert (wget wp c .| e = w) as Hg by (rewrite (wget_Some _ _ _ Hw); clear - Hi; bits).
  assert (<[c := wget wp c .| e]> wp = wp) as H1 by (rewrite Hg; by apply insert_id).
  unfold wadd. rewrite H1. pose proof (wo_agg _ _ Hwp) as Ha.
  assert (incl_ev e (others wp)) as Ho.
  { intros i Hi0. apply has_others_get. exists c. split; [done|]. rewrite (wget_Some _ _ _ Hw). by apply Hi. }
  pose proof (agg_ok_get P wp Ha) as Hn. f_equal.
  - apply insert_id. unfold agg_ok in Ha. rewrite bool_decide_false in Ha.
    + rewrite Ha. f_equal. rewrite Hn. clear - Ho. bits.
    + intros Hd. assert (delete KNil wp !! c = Some w) as Hx by (by rewrite lookup_delete_ne). rewrite Hd in Hx. done.
  - unfold strip_diff. destruct (N.eqb_spec (wget wp KNil .&^ internal P) ((wget wp KNil .| e) .&^ internal P)) as [_|Hne]; [done|].
    exfalso. apply Hne. rewrite Hn. unfold internal. clear - Ho. bits.
Qed.
Lemma with_tree_same s : with_tree s (st_tree s) = s.
Proof. by destruct s. Qed.
Lemma node_wadd_same E s h c w e :
  nenv E → tinv (st_tree s) → c ≠ KNil → wp_at (st_tree s) h !! c = Some w → incl_ev e w → node_wadd E s h c e = (s, none).
Proof.
  intros HE Ht Hc Hw Hi. unfold node_wadd. rewrite (ne_plat _ _ _ HE).
  rewrite (wadd_same _ c w) by (done || by eapply tinv_wp_at).
  rewrite set_wp_same, with_tree_same by (intros nd Hnd; destruct (ti_wp _ _ _ Ht _ _ Hnd) as (wp&?&_); eauto).
  unfold wp_at in Hw. destruct (st_tree s !! h) as [nd|] eqn:Eh; [|done].
  destruct (ti_wp _ _ _ Ht _ _ Eh) as (wp&Hnw&_). simpl. by rewrite Hnw.
Qed.
Lemma nr_add_same E s h k w :
  nenv E → tinv (st_tree s) → upath sepc h → wp_at (st_tree s) h !! k = Some w →
  r_add (e_sep E) (e_vol E) (st_tree s) (render h) = (st_tree s, Some h).
Proof.
  intros HE Ht Hu Hw. destruct (nr_add_spec P sepc E (st_tree s) h HE Ht Hu) as (t1&->&_&_&_&Hl). f_equal.
  apply map_eq. intros q. rewrite Hl. destruct (st_tree s !! q) as [nd|] eqn:Eq; [done|].
  destruct (decide (q ≠ [] ∧ q `prefix_of` h)) as [[_ Hq]|_]; [|done].
  unfold wp_at in Hw. destruct (st_tree s !! h) as [nd|] eqn:Eh; [|done].
  destruct (closed_prefix (st_tree s) q h (tinv_closed _ _ _ Ht) Hq); [eauto|congruence].
Qed.
Lemma reg_some s p n e : e ≠ 0 → incl_ev e (ureg s p n) → ∃ w, wp_at (st_tree s) p !! KUser n = Some w ∧ incl_ev e w.
Proof.
  intros He Hi. unfold ureg, wget in Hi. destruct (wp_at (st_tree s) p !! KUser n) as [w|]; [eauto|].
  exfalso. apply He. simpl in Hi. clear - Hi. bits.
Qed.
(** A plain Watch for events the channel already has. *)
Lemma plain_again E s p n e :
  nenv E → upath sepc p → tinv (st_tree s) → e ≠ 0 → incl_ev e (ureg s p n) → nstep E s (NWatch p false n e) = (s, ROk).
Proof.
  intros HE Hu Ht He Hi. destruct (reg_some s p n e He Hi) as (w&Hw&Hiw). cbn [SpecNonRec.nstep]. unfold nr_Watch.
  rewrite (nr_add_same E s p (KUser n) w) by done. unfold nr_watch. rewrite with_tree_same.
  by rewrite (node_wadd_same E s p (KUser n) w) by done.
Qed.
(** A recursive one. *)
Lemma rec_again E s p n e x :
  nenv E → upath sepc p → tinv (st_tree s) → incl_ev (e .| recursive P) (ureg s p n) →
  rec_at s p = Some x → incl_ev (e .| Create P) x → nstep E s (NWatch p true n e) = (s, ROk).
Proof.
  intros HE Hu Ht Hi Hx Hxe. assert (e .| recursive P ≠ 0) as He.
  { intros H0. apply (nz_re P HP). apply has_ext. intros i. split; [intros Hr|intros Hr; by apply has_0 in Hr].
    rewrite <-H0. apply has_lor. by right. }
  destruct (reg_some s p n _ He Hi) as (w&Hw&Hiw). cbn [SpecNonRec.nstep]. unfold nr_Watch.
  rewrite (nr_add_same E s p (KUser n) w) by done. rewrite with_tree_same. unfold nr_watchrec. rewrite (ne_plat _ _ _ HE).
  unfold rec_at in Hx.
  assert (incl_ev (NonRecWp.recbits P) x) as Hb by (eapply wo_rec; [|exact Hx]; by eapply tinv_wp_at).
  assert (is_none (dryAdd P (wp_at (st_tree s) p) KRec ((e .| recursive P) .| Create P)) = true) as ->.
  { unfold dryAdd. rewrite (wget_Some _ _ _ Hx). destruct (N.eqb_spec (x .& (((e .| recursive P) .| Create P) .&^ internal P))
      (((e .| recursive P) .| Create P) .&^ internal P)) as [_|Hne]; [done|]. exfalso. apply Hne.
    unfold internal. clear - Hxe. bits. }
  assert (∀ y, incl_ev y (e .| recursive P .| Create P .| omit P) → node_wadd E s p KRec y = (s, none)) as Hr.
  { intros y Hy. apply (node_wadd_same E s p KRec x); try done. unfold NonRecWp.recbits in Hb. clear - Hy Hxe Hb. bits. }
  unfold watchAdd. rewrite (ne_plat _ _ _ HE). destruct (N.eqb_spec ((e .| recursive P) .& recursive P) 0) as [Hz|Hz].
  { exfalso. apply (nz_re P HP). clear - Hz. bits. }
  cbn [negb]. rewrite Hr by (clear; bits). rewrite (node_wadd_same E s p (KUser n) w) by done.
  by rewrite Hr by (clear; bits).
Qed.

(** Successful Watch calls still in force, plain or recursive. *)
Definition in_force_any (tr : list (nop * result)) (isrec : bool) (p : path) (n : positive) (e : N) : Prop :=
  ∃ tr1 tr2, tr = tr1 ++ (NWatch p isrec n e, ROk) :: tr2 ∧
    (∀ r, (NStop n, r) ∉ tr2) ∧ (∀ q r, (NEvent (Remove P) q, r) ∈ tr2 → ¬ q `prefix_of` p).
Lemma in_force_any_snoc tr x isrec p n e : in_force_any (tr ++ [x]) isrec p n e →
  x = (NWatch p isrec n e, ROk) ∨
  in_force_any tr isrec p n e ∧ (∀ r, x ≠ (NStop n, r)) ∧ (∀ q r, x = (NEvent (Remove P) q, r) → ¬ q `prefix_of` p).
Proof.
  intros (tr1&tr2&Heq&Hst&Hrm). apply app_split_last' in Heq as [(->&->&<-)|(tr2'&->&->)]; [by left|]. right. split_and!.
  - exists tr1, tr2'. split_and!; [done|intros r Hr; apply (Hst r)|intros q r Hr; apply (Hrm q r)]; apply elem_of_app; by left.
  - intros r ->. apply (Hst r), elem_of_app. right. left.
  - intros q r ->. apply (Hrm q r), elem_of_app. right. left.
Qed.
Lemma in_force_regs tr s isrec p n e : nexec tr s → in_force_any tr isrec p n e → incl_ev (e .| rec_bit P isrec) (ureg s p n).
Proof.
  intros Hx. revert isrec p n e. induction Hx as [|tr s E o s' r Hx IH HE Ho Hs]; intros isrec p n e Hf.
  { destruct Hf as (tr1&?&Heq&_). by destruct tr1. }
  destruct (nexec_inv P HP sepc _ _ Hx) as [Ht _].
  destruct (nstep_spec P HP sepc E s o s' r HE Ho Ht Hs) as (_&_&Hreg).
  apply in_force_any_snoc in Hf as [[= -> ->]|(Hf&Hst&Hrm)].
  - cbn in Hreg. destruct Hreg as [_ ->]. clear. bits.
  - specialize (IH _ _ _ _ Hf). destruct o as [q b m e'|m|ev q]; cbn in Hreg.
    + destruct Hreg as [Hoth Hown]. destruct (decide ((p, n) = (q, m))) as [[= -> ->]|Hd]; [|by rewrite Hoth].
      destruct r, b; try (rewrite Hown; clear - IH; bits); destruct Hown as [Hown _]; clear - IH Hown; bits.
    + rewrite Hreg, decide_False; [done|]. intros ->. by apply (Hst r).
    + rewrite Hreg, decide_False; [done|]. intros [-> Hq]. by apply (Hrm q r).
Qed.
Lemma in_force_rec tr s p n e : nexec tr s → e ≠ 0 → user_ev P e → in_force_any tr true p n e →
  ∃ x, rec_at s p = Some x ∧ incl_ev (e .| Create P) x.
Proof.
  intros Hx He0 Hue. induction Hx as [|tr s E o s' r Hx IH HE Ho Hs]; intros Hf.
  { destruct Hf as (tr1&?&Heq&_). by destruct tr1. }
  destruct (nexec_inv P HP sepc _ _ Hx) as [Ht _].
  apply in_force_any_snoc in Hf as [[= -> ->]|(Hf&Hst&Hrm)].
  - destruct Ho as (Hu&H32&_). cbn [SpecNonRec.nstep] in Hs. unfold nr_Watch in Hs.
    assert (disj_ev e (omit P)) as Hom by (clear - Hue; unfold user_ev, internal in *; bits).
    destruct (nr_add_spec P sepc E (st_tree s) p HE Ht Hu) as (t1&Hadd&Ht1&Hp1&Hw1&Hl1). rewrite Hadd in Hs.
    rewrite (ne_plat _ _ _ HE) in Hs.
    destruct (watchrec_spec P HP sepc E (with_tree s t1) p n (e .| recursive P) s' ROk) as (_&_&H3); try done.
    + apply u32_lor; [done|by apply u32_recursive].
    + clear. bits.
    + pose proof (d_re_om P HP) as Hd. clear - Hd Hom. bits.
    + destruct H3 as [(?&_)|(_&s1&wp'&->&_&Hh2&_&Hrg&_)]; [done|]. unfold rec_at. cbn [st_tree with_tree].
      rewrite wp_at_set_wp, decide_True by done. rewrite (rg_rec _ _ _ _ _ Hrg). eexists. split; [done|].
      unfold NonRecFacts.recx. clear. bits.
  - pose proof (in_force_regs _ _ _ _ _ _ Hx Hf) as Hu. destruct (IH Hf) as (x&Hr&Hi). destruct o as [q [] m e'|m|ev q].
    + destruct Ho as (Huq&H32&Hue'). cbn [SpecNonRec.nstep] in Hs. unfold nr_Watch in Hs.
      assert (disj_ev e' (omit P)) as Hom by (clear - Hue'; unfold user_ev, internal in *; bits).
      destruct (nr_add_spec P sepc E (st_tree s) q HE Ht Huq) as (t1&Hadd&Ht1&Hp1&Hw1&Hl1). rewrite Hadd in Hs.
      rewrite (ne_plat _ _ _ HE) in Hs.
      assert (rec_at (with_tree s t1) p = Some x) as Hr1 by (unfold rec_at in *; cbn [st_tree with_tree]; by rewrite Hw1).
      destruct (watchrec_spec P HP sepc E (with_tree s t1) q m (e' .| recursive P) s' r) as (_&_&H3); try done.
      * apply u32_lor; [done|by apply u32_recursive].
      * clear. bits.
      * pose proof (d_re_om P HP) as Hd. clear - Hd Hom. bits.
      * destruct H3 as [(_&_&Hg&_)|(_&s1&wp'&->&_&Hh2&Hg&Hrg&_)].
        -- destruct (grow_rec_some _ _ _ _ _ Hg Hr1) as (x'&Hx'&Hi'). exists x'. split; [done|]. clear - Hi Hi'. bits.
        -- destruct (grow_rec_some _ _ _ _ _ Hg Hr1) as (x'&Hx'&Hi'). unfold rec_at. cbn [st_tree with_tree]. rewrite wp_at_set_wp.
           destruct (decide (p = q ∧ is_Some (st_tree s1 !! q))) as [[-> _]|_].
           ++ rewrite (rg_rec _ _ _ _ _ Hrg). eexists. split; [done|]. rewrite (wget_Some _ _ _ Hx'). clear - Hi Hi'. bits.
           ++ exists x'. split; [done|]. clear - Hi Hi'. bits.
    + destruct (plain_rec P sepc E s q m e' s' r HE Ho Ht Hs) as [Hr' _]. rewrite Hr'. eauto.
    + cbn in Hs. injection Hs as <- <-. rewrite (stop_rec P HP sepc) by done. rewrite Hr.
      set (mm := minof [] (st_tree (nr_Stop E s (KUser m))) p).
      assert (incl_ev e (rest P mm (wp_at (st_tree s) p) (KUser m))) as Hin.
      { intros i Hi0. assert (m ≠ n) as Hmn by (intros ->; by apply (Hst ROk)).
        assert (has (others (delete (KUser m) (delete KRec (wp_at (st_tree s) p)))) i) as Hoi.
        { apply has_others_get. exists (KUser n). split; [done|].
          assert (has (ureg s p n) i) as Hx0 by (apply Hu, has_lor; by left). unfold ureg, wget in *.
          by rewrite !lookup_delete_ne by congruence. }
        unfold rest, vis. unfold user_ev in Hue. specialize (Hue i Hi0). rewrite has_ldiff, has_lor. split; [by right|done]. }
      assert (incl_ev e (x .& rest P mm (wp_at (st_tree s) p) (KUser m))) as Hin2 by (clear - Hin Hi; bits).
      rewrite bool_decide_false.
      * eexists. split; [done|]. clear - Hin2. bits.
      * intros H0. rewrite H0 in Hin2. apply He0. clear - Hin2. bits.
    + cbn in Hs. injection Hs as <- <-. destruct (decide (ev = Remove P)) as [->|Hev].
      * destruct (rmdir_spec P HP sepc E s q HE Ht Ho) as [Hw _]. exists x. split; [|done]. unfold rec_at.
        rewrite Hw, decide_False; [done|]. by apply (Hrm q ROk).
      * destruct (create_mono P HP sepc E s ev q HE Ht Ho Hev p x Hr) as (x'&Hx'&Hi'). exists x'. split; [done|]. clear - Hi Hi'. bits.
Qed.

(** Stop of a channel without registrations, after a Stop. *)
Lemma stopf_twice n l m wp : wp_ok wp → min_ok P m → stopf P n m wp !! KUser l = None →
  let wp' := stopf P n m wp in stopf P l m wp' = wp' ∧ (wdelmin P m wp' (KUser l) all32).2 = none.
Proof.
  intros Hwp Hm. cbn zeta. intros Hl. destruct (wdelmin_spec P HP m wp n Hwp Hm) as (H1&H2&H3&H4). fold (stopf P n m wp) in *.
  set (wp' := stopf P n m wp) in *. destruct (wdelmin_spec P HP m wp' l H1 Hm) as (K1&K2&K3&K4). fold (stopf P l m wp') in *.
  assert (delete KNil (delete (KUser l) (delete KRec wp')) = delete KNil (delete (KUser n) (delete KRec wp))) as Hd.
  { apply map_eq. intros j. destruct (decide (j = KNil)) as [->|Hj0]; [by rewrite !lookup_delete|].
    rewrite !(lookup_delete_ne _ KNil) by done.
    assert (∀ i (w : watchpoint), delete (KUser i) (delete KRec w) !! j = if decide (j = KUser i ∨ j = KRec) then None else w !! j) as Hdj.
    { intros i w. destruct (decide (j = KUser i ∨ j = KRec)) as [[->| ->]|Hj]; [by rewrite lookup_delete|by rewrite lookup_delete_ne, lookup_delete|].
      rewrite !lookup_delete_ne; naive_solver. }
    rewrite !Hdj. destruct (decide (j = KRec)) as [->|Hj2]; [by rewrite !decide_True by (by right)|].
    destruct (decide (j = KUser l)) as [->|Hjl].
    - rewrite decide_True by (by left). rewrite H2 in Hl by done. case_bool_decide as Hln; [by rewrite decide_True by (by left)|].
      rewrite decide_False by naive_solver. done.
    - rewrite decide_False by naive_solver. rewrite H2 by done. case_bool_decide as Hjn; [by rewrite decide_True by (by left)|].
      by rewrite decide_False by naive_solver. }
  assert (rest P m wp' (KUser l) = rest P m wp (KUser n)) as Hrest by (unfold rest, others; by rewrite Hd).
  assert (∀ k, k ≠ KNil → stopf P l m wp' !! k = wp' !! k) as Hk.
  { intros k Hk. destruct (decide (k = KRec)) as [->|Hr].
    - rewrite K3. rewrite H3. destruct (wp !! KRec) as [old|]; [|done].
      case_bool_decide as Hz; [done|]. rewrite Hrest.
      set (R := rest P m wp (KUser n)) in *. rewrite bool_decide_false.
      + f_equal. clear. bits.
      + intros H0. apply Hz. clear - H0. bits.
    - rewrite K2 by done. case_bool_decide as Hkl; [by rewrite Hkl|done]. }
  assert (delete KNil (stopf P l m wp') = delete KNil wp') as Hdel.
  { apply map_eq. intros k. destruct (decide (k = KNil)) as [->|Hkn]; [by rewrite !lookup_delete|].
    rewrite !lookup_delete_ne by done. by apply Hk. }
  assert (stopf P l m wp' = wp') as Heq.
  { apply map_eq. intros k. destruct (decide (k = KNil)) as [->|Hkn]; [|by apply Hk].
    pose proof (wo_agg _ _ H1) as A1. pose proof (wo_agg _ _ K1) as A2. unfold agg_ok, others in *. by rewrite A1, A2, Hdel. }
  split; [done|]. rewrite Heq in K4. by destruct K4 as [[_ ?]|[? _]].
Qed.
Lemma stop_twice E E' s n l : nenv E → nenv E' → tinv (st_tree s) →
  let s1 := nr_Stop E s (KUser n) in let s2 := nr_Stop E' s1 (KUser l) in
  (∀ p, wp_at (st_tree s1) p !! KUser l = None) →
  st_tree s2 = st_tree s1 ∧ st_log s2 = st_log s1 ∧ st_panic s2 = st_panic s1.
Proof.
  intros HE HE' Ht. cbn zeta. intros Hl. destruct (nr_Stop_spec P HP sepc E n s HE Ht) as (Ht1&Hn1&Hp1&Hnm1&Hw1).
  set (s1 := nr_Stop E s (KUser n)) in *. unfold nr_Stop.
  destruct (walkWatchpoint E' (stop_fn E' (KUser l)) s1 []) as [s2 r] eqn:Ew. cbn [fst].
  set (I := λ s3 (_ : list path), st_tree s3 = st_tree s1 ∧ st_log s3 = st_log s1 ∧ st_panic s3 = st_panic s1).
  destruct (ww_loop P sepc E' HE' (stop_fn E' (KUser l)) (stopf P l) (stopf_empty P l) (stopf_ok P HP l)
    (λ s m h _ _ _, stop_tree P sepc E' l s m h HE') I s1 [] s2 r) as (_&_&_&_&_&_&H); try done.
  { apply Ht1. }
  intros s3 m p rest s4 ks (I1&I2&I3) Ht3 Hp3 Hm _ _ _ _ [[-> _]|[-> Hne]] _ Hmm; [done|].
  destruct (stopf_twice n l m (wp_at (st_tree s) p)) as [T1 T2]; [by eapply tinv_wp_at|done|by rewrite Hmm, I1, <-Hw1|].
  assert (wp_at (st_tree s3) p = stopf P n m (wp_at (st_tree s) p)) as Hw by (by rewrite I1, Hw1, Hmm, I1).
  unfold stop_fn, watchDelMin. rewrite (ne_plat _ _ _ HE'), Hw.
  destruct (wdelmin P m (stopf P n m (wp_at (st_tree s) p)) (KUser l) all32) as [wp d] eqn:Ed. cbn [snd] in T2. subst d.
  assert (wp = stopf P n m (wp_at (st_tree s) p)) as -> by (rewrite <-T1 at 1; unfold stopf at 1; by rewrite Ed).
  cbn. rewrite <-Hw, set_wp_same by (intros nd Hnd; destruct (ti_wp _ _ _ Ht3 _ _ Hnd) as (wp&?&_); eauto). done.
Qed.
End state.

(** ** From calls of the API to operations of the tree *)
Section api.
Context (P : platform) (HP : platform_ok P).
Lemma trans_split tr trs l1 y l2 : Forall2 (trans P) tr trs → concat trs = l1 ++ y :: l2 →
  ∃ tr1 x tr2 trs1 trs2, tr = tr1 ++ x :: tr2 ∧ trans P x [y] ∧ Forall2 (trans P) tr1 trs1 ∧ Forall2 (trans P) tr2 trs2 ∧
    l1 = concat trs1 ∧ l2 = concat trs2.
Proof.
  intros Ht. revert l1. induction Ht as [|x l tr trs Hx Ht IH]; intros l1 Heq; [by destruct l1|]. cbn [concat] in Heq.
  assert ((l = [] ∧ concat trs = l1 ++ y :: l2) ∨ ∃ z, l = [z]) as [[-> Hc]|[z ->]].
  { inversion Hx; subst; [by left|by left|right; eauto..]. }
  - destruct (IH _ Hc) as (tr1&x'&tr2&trs1&trs2&->&?&?&?&->&->). exists (x :: tr1), x', tr2, ([] :: trs1), trs2.
    split_and!; try done. by constructor.
  - destruct l1 as [|z' l1].
    + injection Heq as -> <-. exists [], x, tr, [], trs. split_and!; done.
    + injection Heq as -> Hc. destruct (IH _ Hc) as (tr1&x'&tr2&trs1&trs2&->&?&?&?&->&->).
      exists (x :: tr1), x', tr2, ([z'] :: trs1), trs2. split_and!; try done. by constructor.
Qed.
Lemma trans_elem tr trs y : Forall2 (trans P) tr trs → y ∈ concat trs → ∃ x, x ∈ tr ∧ trans P x [y].
Proof.
  intros Ht (l1&l2&Heq)%elem_of_list_split. destruct (trans_split _ _ _ _ _ Ht Heq) as (tr1&x&tr2&_&_&->&Hx&_).
  exists x. split; [|done]. apply elem_of_app. right. left.
Qed.
Lemma trans_elem' tr trs x y : Forall2 (trans P) tr trs → x ∈ tr → (∀ l, trans P x l → l = [y]) → y ∈ concat trs.
Proof.
  intros Ht Hx Hy. induction Ht as [|x' l tr trs Hx' Ht IH]; [by apply elem_of_nil in Hx|]. cbn [concat]. apply elem_of_app.
  apply elem_of_cons in Hx as [<-|Hx]; [left; rewrite (Hy _ Hx'); left|right; by apply IH].
Qed.
Lemma kept_nops tr trs n q : Forall2 (trans P) tr trs → (∀ p r, (AEvent (Remove P) p, r) ∈ tr → gpath slash p) → kept P tr n q →
  (∀ r, (NStop n, r) ∉ concat trs) ∧ (∀ p r, (NEvent (Remove P) p, r) ∈ concat trs → ¬ p `prefix_of` nodeof q).
Proof.
  intros Ht Hg [H1 H2]. split.
  - intros r (x&Hx&Hy)%(trans_elem tr trs _ Ht). inversion Hy; subst. by apply (H1 (ORet ROk)).
  - intros p r (x&Hx&Hy)%(trans_elem tr trs _ Ht). inversion Hy; subst. destruct q as [|c q]; [|by apply (H2 p (ORet ROk))].
    intros Hpre. destruct (Hg p (ORet ROk) Hx) as (Hp&_&Hnil). destruct p as [|c p]; [done|].
    cbn [nodeof] in Hpre. apply prefix_cons_inv_1 in Hpre as ->. apply Hnil. left.
Qed.
End api.
