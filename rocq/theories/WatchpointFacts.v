(** * WatchpointFacts: proofs about Watchpoint.v *)
From Verif Require Import Base Event Watchpoint.
Local Open Scope N_scope.

(** ** Platform constants as atoms *)
Section plat.
Context (P : platform) (Hok : platform_ok P).

Lemma pok_nonzero x : x ∈ consts P → x ≠ 0.
Proof. intros Hx. destruct (pok_single P Hok x Hx) as [k ->]. by apply N.pow_nonzero. Qed.
Lemma disj_consts i j x y :
  consts P !! i = Some x → consts P !! j = Some y → i ≠ j → disj_ev x y.
Proof. intros. by eapply pok_disj. Qed.
Lemma d_cr_re : disj_ev (Create P) (recursive P).
Proof. by eapply (disj_consts 0%nat 4%nat). Qed.
Lemma d_cr_om : disj_ev (Create P) (omit P).
Proof. by eapply (disj_consts 0%nat 5%nat). Qed.
Lemma d_rm_re : disj_ev (Remove P) (recursive P).
Proof. by eapply (disj_consts 1%nat 4%nat). Qed.
Lemma d_rm_om : disj_ev (Remove P) (omit P).
Proof. by eapply (disj_consts 1%nat 5%nat). Qed.
Lemma d_re_om : disj_ev (recursive P) (omit P).
Proof. by eapply (disj_consts 4%nat 5%nat). Qed.
Lemma nz_cr : Create P ≠ 0.
Proof. apply pok_nonzero. set_solver. Qed.
Lemma nz_re : recursive P ≠ 0.
Proof. apply pok_nonzero. set_solver. Qed.
Lemma nz_om : omit P ≠ 0.
Proof. apply pok_nonzero. set_solver. Qed.
Lemma d_cr_int : disj_ev (Create P) (internal P).
Proof. pose proof d_cr_re. pose proof d_cr_om. unfold internal. bits. Qed.
End plat.

Lemma single_bit_incl x e : single_bit x → (e .& x ≠ 0 ↔ incl_ev x e).
Proof.
  intros [k ->]. split.
  - intros H i Hi. unfold has in *. rewrite N.pow2_bits_eqb in Hi.
    apply N.eqb_eq in Hi as ->.
    apply nonzero_bit in H as [j Hj]. unfold has in Hj.
    rewrite N.land_spec, N.pow2_bits_eqb in Hj.
    apply andb_true_iff in Hj as [Hj1 Hj2]. apply N.eqb_eq in Hj2 as ->. done.
  - intros H. apply nonzero_bit. exists k. unfold has. rewrite N.land_spec.
    rewrite (H k); [|unfold has; by rewrite N.pow2_bits_true].
    by rewrite N.pow2_bits_true.
Qed.

(** ** Joins *)
Lemma has_join l i : has (join l) i ↔ ∃ e, e ∈ l ∧ has e i.
Proof.
  induction l as [|x l IH]; simpl.
  - split; [intros H; by apply has_0 in H|]. intros (?&H&_). by apply elem_of_nil in H.
  - rewrite has_lor, IH. split.
    + intros [H|(e&?&?)]; [exists x|exists e]; set_solver.
    + intros (e&[->|H]%elem_of_cons&?); [by left|right; by exists e].
Qed.
Lemma join_perm l l' : l ≡ₚ l' → join l = join l'.
Proof.
  intros H. apply has_ext. intros i. rewrite !has_join.
  by setoid_rewrite H.
Qed.
Lemma has_joinall wp i : has (joinall wp) i ↔ ∃ k e, wp !! k = Some e ∧ has e i.
Proof.
  unfold joinall. rewrite has_join. split.
  - intros (e&([k e']&->&H)%elem_of_list_fmap&?). exists k, e'.
    by apply elem_of_map_to_list in H.
  - intros (k&e&H&?). exists e. split; [|done].
    apply elem_of_list_fmap. exists (k,e). split; [done|]. by apply elem_of_map_to_list.
Qed.
Lemma joinall_insert wp k e :
  wp !! k = None → joinall (<[k:=e]> wp) = joinall wp .| e.
Proof.
  intros Hk. apply has_ext. intros i. rewrite has_lor, !has_joinall. split.
  - intros (k'&e'&H&Hi). destruct (decide (k = k')) as [<-|].
    + rewrite lookup_insert in H. injection H as <-. by right.
    + rewrite lookup_insert_ne in H by done. left. eauto.
  - intros [(k'&e'&H&Hi)|Hi].
    + exists k', e'. rewrite lookup_insert_ne by congruence. done.
    + exists k, e. by rewrite lookup_insert.
Qed.
Lemma joinall_empty : joinall ∅ = 0.
Proof. unfold joinall. by rewrite map_to_list_empty. Qed.

(** ** Specification of the aggregate *)
(** Bits asked for by some key other than the aggregate key. *)
Definition wants (wp : watchpoint) (i : N) : Prop :=
  ∃ k e, k ≠ KNil ∧ wp !! k = Some e ∧ has e i.
(** Joined interest of all non-aggregate keys. *)
Definition others (wp : watchpoint) : N := joinall (delete KNil wp).
Lemma has_others wp i : has (others wp) i ↔ wants wp i.
Proof.
  unfold others, wants. rewrite has_joinall. split.
  - intros (k&e&[? ?]%lookup_delete_Some&?). eauto 10.
  - intros (k&e&?&?&?). exists k, e. by rewrite lookup_delete_ne.
Qed.

(** The aggregate entry is present iff there is another entry, and then it is
    exactly the union of the other entries without the omit bit. *)
Definition agg_ok (P : platform) (wp : watchpoint) : Prop :=
  wp !! KNil = if bool_decide (delete KNil wp = ∅) then None
               else Some (others wp .&^ omit P).

Lemma agg_ok_empty P : agg_ok P ∅.
Proof. unfold agg_ok. by rewrite delete_empty, bool_decide_true. Qed.

Lemma agg_ok_get P wp : agg_ok P wp → wget wp KNil = others wp .&^ omit P.
Proof.
  unfold agg_ok, wget. intros ->. case_bool_decide as H; simpl; [|done].
  unfold others. rewrite H, joinall_empty. bits.
Qed.

Lemma wget_insert wp k e : wget (<[k:=e]> wp) k = e.
Proof. unfold wget. by rewrite lookup_insert. Qed.
Lemma wget_insert_ne wp k k' e : k ≠ k' → wget (<[k:=e]> wp) k' = wget wp k'.
Proof. intros. unfold wget. by rewrite lookup_insert_ne. Qed.
Lemma wget_delete wp k : wget (delete k wp) k = 0.
Proof. unfold wget. by rewrite lookup_delete. Qed.
Lemma wget_delete_ne wp k k' : k ≠ k' → wget (delete k wp) k' = wget wp k'.
Proof. intros. unfold wget. by rewrite lookup_delete_ne. Qed.

Lemma has_wget wp k i : has (wget wp k) i ↔ ∃ e, wp !! k = Some e ∧ has e i.
Proof.
  unfold wget. destruct (wp !! k) as [e|] eqn:E; simpl.
  - naive_solver.
  - split; [intros H; by apply has_0 in H|naive_solver].
Qed.

Lemma has_others_get wp i : has (others wp) i ↔ ∃ k, k ≠ KNil ∧ has (wget wp k) i.
Proof.
  rewrite has_others. unfold wants. setoid_rewrite has_wget. naive_solver.
Qed.
Lemma others_ext wp wp' : (∀ k, k ≠ KNil → wget wp k = wget wp' k) → others wp = others wp'.
Proof.
  intros H. apply has_ext. intros i. rewrite !has_others_get.
  split; intros (k&?&?); exists k; split; try done; [by rewrite <-H|by rewrite H].
Qed.

(** ** Add *)
Lemma wadd_get P wp c e k :
  c ≠ KNil → k ≠ KNil →
  (wadd P wp c e).1 !! k = if bool_decide (k = c) then Some (wget wp c .| e) else wp !! k.
Proof.
  intros Hc Hk. unfold wadd; simpl. rewrite lookup_insert_ne by done.
  case_bool_decide; [subst; by rewrite lookup_insert|by rewrite lookup_insert_ne].
Qed.
Lemma wadd_wget P wp c e k :
  c ≠ KNil → k ≠ KNil →
  wget (wadd P wp c e).1 k = if bool_decide (k = c) then wget wp c .| e else wget wp k.
Proof. intros. unfold wget at 1. rewrite wadd_get by done. by case_bool_decide. Qed.
Lemma others_wadd P wp c e : c ≠ KNil → others (wadd P wp c e).1 = others wp .| e.
Proof.
  intros Hc. apply has_ext. intros i. rewrite has_lor, !has_others_get. split.
  - intros (k&Hk&H). rewrite wadd_wget in H by done. case_bool_decide.
    + apply has_lor in H as [H|H]; [left|by right]. by exists c.
    + left. by exists k.
  - intros [(k&Hk&H)|H].
    + exists k. split; [done|]. rewrite wadd_wget by done. case_bool_decide; [|done].
      subst. apply has_lor. by left.
    + exists c. split; [done|]. rewrite wadd_wget by done. rewrite bool_decide_true by done.
      apply has_lor. by right.
Qed.
Lemma delete_ne_empty (wp : watchpoint) k e : k ≠ KNil → wp !! k = Some e → delete KNil wp ≠ ∅.
Proof.
  intros Hk H He. assert (delete KNil wp !! k = Some e) as H1 by (by rewrite lookup_delete_ne).
  by rewrite He in H1.
Qed.
Lemma agg_ok_wadd P wp c e : c ≠ KNil → agg_ok P wp → agg_ok P (wadd P wp c e).1.
Proof.
  intros Hc Hok. unfold agg_ok. rewrite bool_decide_false.
  2:{ eapply delete_ne_empty; [exact Hc|]. rewrite wadd_get by done. by rewrite bool_decide_true. }
  rewrite others_wadd by done. unfold wadd; simpl. rewrite lookup_insert. f_equal.
  rewrite wget_insert_ne by done. rewrite (agg_ok_get P) by done. bits.
Qed.

(** Union of all interests without internal bits: what the OS must report. *)
Definition total (P : platform) (wp : watchpoint) : N := others wp .&^ internal P.

Lemma wtotal_total P wp : agg_ok P wp → wtotal P wp = total P wp.
Proof. intros H. unfold wtotal, total. rewrite (agg_ok_get P) by done. unfold internal. bits. Qed.

Definition diff_exact (old new : N) (d : eventDiff) : Prop :=
  (old = new ∧ d = none) ∨ (old ≠ new ∧ d = (old, new)).

Lemma strip_diff_exact P a c :
  diff_exact (a .&^ internal P) (c .&^ internal P) (strip_diff P a c).
Proof.
  unfold strip_diff, diff_exact. destruct (N.eqb_spec (a .&^ internal P) (c .&^ internal P)); auto.
Qed.

Lemma wadd_diff P wp c e :
  c ≠ KNil → agg_ok P wp →
  diff_exact (total P wp) (total P (wadd P wp c e).1) (wadd P wp c e).2.
Proof.
  intros Hc Hok. unfold total at 2. rewrite others_wadd by done. unfold wadd; simpl.
  rewrite wget_insert_ne by done. rewrite (agg_ok_get P) by done.
  replace (total P wp) with ((others wp .&^ omit P) .&^ internal P)
    by (unfold total, internal; bits).
  replace ((others wp .| e) .&^ internal P)
    with ((others wp .&^ omit P .| e) .&^ internal P) by (unfold internal; bits).
  apply strip_diff_exact.
Qed.

Lemma total_wadd P wp c e : c ≠ KNil → total P (wadd P wp c e).1 = total P wp .| (e .&^ internal P).
Proof. intros. unfold total. rewrite others_wadd by done. bits. Qed.

(** ** Del *)
Definition wdel_raw (wp : watchpoint) (c : key) (e : N) : watchpoint :=
  let v := wget wp c .&^ e in
  if v =? 0 then delete c wp else <[c := v]> wp.
Lemma wdel_unfold P wp c e : c ≠ KNil →
  wdel P wp c e =
    let wp3 := delete KNil (wdel_raw wp c e) in
    if bool_decide (wp3 = ∅) then (wp3, strip_diff P (wget wp KNil) 0)
    else (<[KNil := joinall wp3 .&^ omit P]> wp3, strip_diff P (wget wp KNil) (joinall wp3)).
Proof.
  intros Hc. unfold wdel, wdel_raw. rewrite wget_insert.
  destruct (N.eqb_spec (wget wp c .&^ e) 0) as [E|E]; simpl.
  - rewrite delete_insert_delete. rewrite wget_delete_ne by done. done.
  - rewrite wget_insert_ne by done. done.
Qed.
Lemma wdel_get P wp c e k :
  c ≠ KNil → k ≠ KNil →
  (wdel P wp c e).1 !! k =
    if bool_decide (k = c)
    then (if wget wp c .&^ e =? 0 then None else Some (wget wp c .&^ e))
    else wp !! k.
Proof.
  intros Hc Hk. rewrite wdel_unfold by done. simpl.
  assert (delete KNil (wdel_raw wp c e) !! k =
    if bool_decide (k = c)
    then (if wget wp c .&^ e =? 0 then None else Some (wget wp c .&^ e))
    else wp !! k) as Hraw.
  { rewrite lookup_delete_ne by done. unfold wdel_raw.
    destruct (_ =? 0); case_bool_decide; subst;
      rewrite ?lookup_delete, ?lookup_insert, ?lookup_delete_ne, ?lookup_insert_ne by done; done. }
  destruct (bool_decide (delete KNil (wdel_raw wp c e) = ∅)); simpl; [exact Hraw|].
  rewrite lookup_insert_ne by done. exact Hraw.
Qed.
Lemma wdel_wget P wp c e k :
  c ≠ KNil → k ≠ KNil →
  wget (wdel P wp c e).1 k = if bool_decide (k = c) then wget wp c .&^ e else wget wp k.
Proof.
  intros. unfold wget at 1. rewrite wdel_get by done. case_bool_decide; [|done].
  destruct (N.eqb_spec (wget wp c .&^ e) 0) as [->|]; done.
Qed.
Lemma wdel_agg P wp c e : c ≠ KNil → agg_ok P (wdel P wp c e).1.
Proof.
  intros Hc. rewrite wdel_unfold by done. simpl. unfold agg_ok.
  case_bool_decide as E; simpl.
  - rewrite delete_idemp, bool_decide_true by done. apply lookup_delete.
  - rewrite delete_insert_delete, delete_idemp, bool_decide_false by done.
    rewrite lookup_insert. f_equal. f_equal. unfold others.
    by rewrite delete_insert_delete, delete_idemp.
Qed.
Lemma wdel_diff P wp c e :
  c ≠ KNil → agg_ok P wp →
  diff_exact (total P wp) (total P (wdel P wp c e).1) (wdel P wp c e).2.
Proof.
  intros Hc Hok. rewrite wdel_unfold by done.
  set (wp3 := delete KNil (wdel_raw wp c e)). simpl.
  rewrite (agg_ok_get P) by done.
  replace (total P wp) with ((others wp .&^ omit P) .&^ internal P)
    by (unfold total, internal; bits).
  case_bool_decide as E; simpl.
  - replace (total P wp3) with (0 .&^ internal P); [apply strip_diff_exact|].
    unfold total, others. rewrite E, delete_empty, joinall_empty. done.
  - replace (total P (<[KNil:=joinall wp3 .&^ omit P]> wp3)) with (joinall wp3 .&^ internal P);
      [apply strip_diff_exact|].
    unfold total, others. rewrite delete_insert_delete. unfold wp3. by rewrite delete_idemp.
Qed.

(** ** Dispatch *)
(** Non-windows matching: same omit class, and every event bit is in the set. *)
Lemma matches_unix P set e : windows P = false → single_bit (omit P) →
  matches P set e = true ↔
    ((∃ i, has (omit P) i ∧ has set i) ↔ (∃ i, has (omit P) i ∧ has e i)) ∧ incl_ev e set.
Proof.
  intros Hw Ho. unfold matches. rewrite Hw, andb_true_iff, !N.eqb_eq, land_eq_incl.
  apply and_iff_compat_r. rewrite N.lxor_eq_0_iff.
  destruct Ho as [k Hk].
  assert (∀ x, (∃ i, has (omit P) i ∧ has x i) ↔ N.testbit x k = true) as Hx.
  { intros x. split.
    - intros (i&Hi&?). unfold has in Hi. rewrite Hk, N.pow2_bits_eqb in Hi.
      apply N.eqb_eq in Hi as ->. done.
    - intros H. exists k. split; [|done]. unfold has. by rewrite Hk, N.pow2_bits_true. }
  rewrite !Hx, Hk. split.
  - intros H. apply eq_at with (i:=k) in H. rewrite !N.land_spec, N.pow2_bits_true, !andb_true_r in H.
    by rewrite H.
  - intros H. apply N.bits_inj. intros i. rewrite !N.land_spec, N.pow2_bits_eqb.
    destruct (N.eqb_spec k i) as [<-|]; [|by rewrite !andb_false_r].
    rewrite !andb_true_r. destruct (N.testbit set k), (N.testbit e k); naive_solver.
Qed.

Lemma matches_noomit P set e : windows P = false →
  disj_ev e (omit P) →
  matches P set e = true ↔ disj_ev set (omit P) ∧ incl_ev e set.
Proof.
  intros Hw Ho. unfold matches. rewrite Hw, andb_true_iff, !N.eqb_eq, land_eq_incl.
  apply and_iff_compat_r. rewrite N.lxor_eq_0_iff.
  apply land_zero_disj in Ho. rewrite Ho. apply land_zero_disj.
Qed.

Lemma wtargets_elem P wp ord ei extra k :
  ord ≡ₚ map_to_list wp →
  k ∈ wtargets P wp ord ei extra ↔
    matches P (wget wp KNil) (eventmask P ei extra) = true ∧ k ≠ KNil ∧
    ∃ eset, wp !! k = Some eset ∧ matches P eset (eventmask P ei extra) = true.
Proof.
  intros Hord. unfold wtargets.
  destruct (matches P (wget wp KNil) (eventmask P ei extra)) eqn:E; simpl.
  - rewrite elem_of_list_omap. split.
    + intros ([k' eset]&Hin&H). rewrite Hord in Hin. apply elem_of_map_to_list in Hin.
      destruct (bool_decide (k' ≠ KNil) && matches P eset (eventmask P ei extra)) eqn:E2; [|done].
      injection H as <-. apply andb_true_iff in E2 as [E2%bool_decide_eq_true ?]. eauto 10.
    + intros (_&Hk&eset&Hl&Hm). exists (k, eset). rewrite Hord, elem_of_map_to_list. split; [done|].
      rewrite bool_decide_true by done. by rewrite Hm.
  - split; [intros H; by apply elem_of_nil in H|naive_solver].
Qed.
Lemma wtargets_NoDup P wp ord ei extra :
  ord ≡ₚ map_to_list wp → NoDup (wtargets P wp ord ei extra).
Proof.
  intros Hord. unfold wtargets. destruct (negb _); [constructor|].
  assert (NoDup ord.*1) as Hnd by (rewrite Hord; apply NoDup_fst_map_to_list).
  clear Hord. induction ord as [|[k v] ord IH]; simpl; [constructor|].
  simpl in Hnd. apply NoDup_cons in Hnd as [Hnin Hnd].
  destruct (bool_decide (k ≠ KNil) && matches P v (eventmask P ei extra)); [|by apply IH].
  apply NoDup_cons. split; [|by apply IH].
  rewrite elem_of_list_omap. intros ([k' v']&Hin&H).
  destruct (bool_decide (k' ≠ KNil) && matches P v' (eventmask P ei extra)); [|done].
  injection H as ->. apply Hnin. apply elem_of_list_fmap. by exists (k, v').
Qed.

(** Exactness: the aggregate pre-check never suppresses a matching channel. *)
Lemma wtargets_exact P wp ord ei extra k :
  windows P = false → agg_ok P wp → ord ≡ₚ map_to_list wp →
  disj_ev (eventmask P ei extra) (omit P) →
  k ∈ wtargets P wp ord ei extra ↔
    k ≠ KNil ∧ ∃ eset, wp !! k = Some eset ∧
      disj_ev eset (omit P) ∧ incl_ev (eventmask P ei extra) eset.
Proof.
  intros Hw Hok Hord Hom. rewrite wtargets_elem by done.
  setoid_rewrite (matches_noomit P _ _ Hw Hom). split; [naive_solver|].
  intros (Hk&eset&Hl&Hd&Hi). split; [|eauto].
  rewrite (agg_ok_get P) by done.
  assert (incl_ev eset (others wp)) as Hsub.
  { intros i Hi'. apply has_others. exists k, eset. done. }
  split; bits.
Qed.

(** ** Windows matching *)
Lemma matches_win P set e : windows P = true → disj_ev e (omit P) →
  matches P set e = true ↔ disj_ev set (omit P) ∧
    (incl_ev e set ∨ ∃ i, has set i ∧ has fileNotifyChangeModified i ∧ has e i).
Proof.
  intros Hw Ho. unfold matches. rewrite Hw, andb_true_iff, orb_true_iff, !N.eqb_eq, land_eq_incl.
  rewrite N.lxor_eq_0_iff. apply land_zero_disj in Ho. rewrite Ho, land_zero_disj.
  apply and_iff_compat_l. apply or_iff_compat_l.
  rewrite negb_true_iff, N.eqb_neq, nonzero_bit. setoid_rewrite has_land. setoid_rewrite has_land.
  naive_solver.
Qed.

Lemma wtargets_exact_win P wp ord ei extra k :
  windows P = true → agg_ok P wp → ord ≡ₚ map_to_list wp →
  disj_ev (eventmask P ei extra) (omit P) →
  k ∈ wtargets P wp ord ei extra ↔
    k ≠ KNil ∧ ∃ eset, wp !! k = Some eset ∧ disj_ev eset (omit P) ∧
      (incl_ev (eventmask P ei extra) eset ∨
       ∃ i, has eset i ∧ has fileNotifyChangeModified i ∧ has (eventmask P ei extra) i).
Proof.
  intros Hw Hok Hord Hom. rewrite wtargets_elem by done.
  setoid_rewrite (matches_win P _ _ Hw Hom). split; [naive_solver|].
  intros (Hk&eset&Hl&Hd&Hi). split; [|eauto].
  rewrite (agg_ok_get P) by done.
  assert (incl_ev eset (others wp)) as Hsub.
  { intros i Hi'. apply has_others. exists k, eset. done. }
  split; [bits|]. destruct Hi as [Hi|(i&H1&H2&H3)].
  - left. bits.
  - right. exists i. split; [|done]. apply has_ldiff. split; [by apply Hsub|].
    intros H. by eapply Hd.
Qed.

(** ** Sending *)
Definition ch_contents (ch : chan) : list event_info := ch_handed ch ++ ch_buf ch.
Lemma send_targets_other ei cs ks k :
  k ∉ ks → foldl (send_one ei) cs ks !! k = cs !! k.
Proof.
  revert cs. induction ks as [|k' ks IH]; intros cs Hk; simpl; [done|].
  apply not_elem_of_cons in Hk as [? ?]. rewrite IH by done.
  unfold send_one. destruct (cs !! k'); [by rewrite lookup_insert_ne|done].
Qed.
Lemma send_targets_in ei cs ks k ch :
  NoDup ks → k ∈ ks → cs !! k = Some ch →
  foldl (send_one ei) cs ks !! k = Some (try_send ch ei).1.
Proof.
  revert cs. induction ks as [|k' ks IH]; intros cs Hnd Hk Hl; [by apply elem_of_nil in Hk|].
  apply NoDup_cons in Hnd as [Hn Hnd]. simpl.
  destruct (decide (k = k')) as [<-|Hne].
  - rewrite send_targets_other by done. unfold send_one. rewrite Hl. by rewrite lookup_insert.
  - apply elem_of_cons in Hk as [?|Hk]; [done|]. apply IH; try done.
    unfold send_one. destruct (cs !! k'); [by rewrite lookup_insert_ne|done].
Qed.
