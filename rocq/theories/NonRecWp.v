(** * NonRecWp: what the non-recursive tree does to one watchpoint *)
From Verif Require Import Base Event Watchpoint WatchpointFacts Paths Loop Node NonRec.
Local Open Scope N_scope.

Section wp.
Context (P : platform) (HP : platform_ok P).

(** The part of a set the OS is programmed with. *)
Definition vis (e : N) : N := e .&^ internal P.
(** Bits every entry of the internal channel carries. *)
Definition recbits : N := Create P .| omit P .| recursive P.

Record wp_ok (wp : watchpoint) : Prop := {
  wo_agg : agg_ok P wp;
  wo_u32 : ∀ k e, wp !! k = Some e → u32 e;
  wo_rec : ∀ r, wp !! KRec = Some r → incl_ev recbits r;
  wo_user : ∀ n e, wp !! KUser n = Some e → disj_ev e (omit P);
}.
Lemma wp_ok_empty : wp_ok ∅.
Proof. split; [apply agg_ok_empty|done..]. Qed.

Lemma u32_lor a c : u32 a → u32 c → u32 (a .| c).
Proof. intros Ha Hc. apply bits_u32. intros i [H|H]%has_lor; [by eapply (u32_bits a)|by eapply (u32_bits c)]. Qed.
Lemma u32_ldiff a c : u32 a → u32 (a .&^ c).
Proof. intros Ha. apply bits_u32. intros i [H _]%has_ldiff. by eapply u32_bits. Qed.
Lemma u32_land a c : u32 a → u32 (a .& c).
Proof. intros Ha. apply bits_u32. intros i [H _]%has_land. by eapply u32_bits. Qed.
Lemma u32_0 : u32 0.
Proof. done. Qed.
Lemma u32_create : u32 (Create P).
Proof. apply (pok_u32 P HP). set_solver. Qed.
Lemma u32_recursive : u32 (recursive P).
Proof. apply (pok_u32 P HP). set_solver. Qed.
Lemma u32_omit : u32 (omit P).
Proof. apply (pok_u32 P HP). set_solver. Qed.
Lemma u32_wget wp k : (∀ k e, wp !! k = Some e → u32 e) → u32 (wget wp k).
Proof. intros H. unfold wget. destruct (wp !! k) eqn:E; simpl; [by eapply H|done]. Qed.
Lemma u32_all e : u32 e → e .&^ all32 = 0.
Proof.
  intros H. apply has_ext. intros i. rewrite has_ldiff. split; [|intros Hi; by apply has_0 in Hi].
  intros [H1 H2]. destruct H2. unfold has. rewrite all32_spec. apply N.ltb_lt. by eapply u32_bits.
Qed.
Lemma u32_others wp : (∀ k e, wp !! k = Some e → u32 e) → u32 (others wp).
Proof.
  intros H. apply bits_u32. intros i (k&e&Hk&Hl&Hi)%has_others. eapply u32_bits; [by eapply H|done].
Qed.
Lemma u32_from_agg wp :
  agg_ok P wp → (∀ k e, k ≠ KNil → wp !! k = Some e → u32 e) → ∀ k e, wp !! k = Some e → u32 e.
Proof.
  intros Ha H k e. destruct (decide (k = KNil)) as [->|Hk]; [|by apply H].
  unfold agg_ok in Ha. rewrite Ha. case_bool_decide; [done|]. intros [= <-]. apply u32_ldiff.
  apply bits_u32. intros i (k&e&Hk&Hl&Hi)%has_others. eapply u32_bits; [by eapply H|done].
Qed.
Lemma wget_Some wp k e : wp !! k = Some e → wget wp k = e.
Proof. intros H. unfold wget. by rewrite H. Qed.
Lemma wget_None wp k : wp !! k = None → wget wp k = 0.
Proof. intros H. unfold wget. by rewrite H. Qed.

(** ** Adding *)
Lemma wadd_lookup_nil wp c e : (wadd P wp c e).1 !! KNil = Some ((wget (<[c := wget wp c .| e]> wp) KNil .| e) .&^ omit P).
Proof. unfold wadd. simpl. by rewrite lookup_insert. Qed.
Lemma wp_ok_wadd wp c e :
  c ≠ KNil → u32 e → (c = KRec → incl_ev recbits (wget wp c .| e)) → (c ≠ KRec → disj_ev e (omit P)) →
  wp_ok wp → wp_ok (wadd P wp c e).1.
Proof.
  intros Hc Hu Hr Hus [Ha H32 Hrec Huser]. split.
  - by apply agg_ok_wadd.
  - intros k x. destruct (decide (k = KNil)) as [->|Hk].
    + rewrite wadd_lookup_nil. intros [= <-]. apply u32_ldiff, u32_lor; [|done].
      rewrite wget_insert_ne by done. by apply u32_wget.
    + rewrite wadd_get by done. case_bool_decide.
      * intros [= <-]. apply u32_lor; [by apply u32_wget|done].
      * apply H32.
  - intros r. rewrite wadd_get by done. case_bool_decide; [|apply Hrec]. intros [= <-]. subst c. by apply Hr.
  - intros n x. rewrite wadd_get by done. case_bool_decide; [|apply Huser]. intros [= <-]. subst c.
    specialize (Hus ltac:(done)). unfold wget. destruct (wp !! KUser n) as [y|] eqn:E; simpl.
    + apply Huser in E. bits.
    + bits.
Qed.

(** ** wdelmin *)
Definition min_ok (m : N) : Prop := u32 m ∧ (m = 0 ∨ incl_ev recbits m).
(** What the node is asked for by everyone but [c] when the internal channel asks
    for [m]. *)
Definition rest (m : N) (wp : watchpoint) (c : key) : N := vis (m .| others (delete c (delete KRec wp))).

Lemma vis_incl_create x : incl_ev (Create P) x ↔ incl_ev (Create P) (vis x).
Proof. pose proof (d_cr_int P HP). unfold vis. split; intros H1; bits. Qed.

Lemma nz_incl_create x : incl_ev (Create P) x → x ≠ 0.
Proof.
  intros H ->. pose proof (nz_cr P HP) as Hnz. apply nonzero_bit in Hnz as [i Hi]. apply H in Hi. by apply has_0 in Hi.
Qed.

Lemma others_rec_split m wp n :
  others (wdel P (<[KRec := m]> wp) (KUser n) all32).1
    = m .| others (delete (KUser n) (delete KRec wp)) .| (wget wp (KUser n) .&^ all32).
Proof.
  apply has_ext. intros i. rewrite !has_lor, !has_others_get, has_ldiff. split.
  - intros (k&Hk&H). rewrite wdel_wget in H by done. case_bool_decide as E.
    + subst k. rewrite wget_insert_ne in H by done. right. by apply has_ldiff.
    + destruct (decide (k = KRec)) as [->|Hr].
      * rewrite wget_insert in H. auto.
      * rewrite wget_insert_ne in H by done. left; right. exists k. split; [done|].
        by rewrite !wget_delete_ne.
  - intros [[H|(k&Hk&H)]|H].
    + exists KRec. split; [done|]. rewrite wdel_wget by done. rewrite bool_decide_false by done.
      by rewrite wget_insert.
    + exists k. split; [done|]. rewrite wdel_wget by done.
      destruct (decide (k = KUser n)) as [->|Hn]; [rewrite wget_delete in H; by apply has_0 in H|].
      rewrite bool_decide_false by done.
      destruct (decide (k = KRec)) as [->|Hr].
      * rewrite wget_delete_ne, wget_delete in H by done. by apply has_0 in H.
      * rewrite wget_insert_ne by done. by rewrite !wget_delete_ne in H by done.
    + exists (KUser n). split; [done|]. rewrite wdel_wget by done. rewrite bool_decide_true by done.
      rewrite wget_insert_ne by done. by apply has_ldiff.
Qed.

Lemma others_split_rec wp : others wp = wget wp KRec .| others (delete KRec wp).
Proof.
  apply has_ext. intros i. rewrite has_lor, !has_others_get. split.
  - intros (k&Hk&H). destruct (decide (k = KRec)) as [->|Hr]; [by left|right].
    exists k. split; [done|]. by rewrite wget_delete_ne.
  - intros [H|(k&Hk&H)]; [by exists KRec|]. exists k. split; [done|].
    destruct (decide (k = KRec)) as [->|Hr]; [rewrite wget_delete in H; by apply has_0 in H|].
    by rewrite wget_delete_ne in H.
Qed.
Lemma others_delete_incl wp k : incl_ev (others (delete k wp)) (others wp).
Proof.
  intros i. rewrite !has_others_get. intros (k'&Hk&H). exists k'. split; [done|].
  destruct (decide (k = k')) as [<-|]; [rewrite wget_delete in H; by apply has_0 in H|].
  by rewrite wget_delete_ne in H.
Qed.

(** The diff computed from the stale aggregate after overwriting the internal
    entry is still exact with respect to the old total. *)
Lemma wdel_diff_stale m wp n :
  wp_ok wp →
  diff_exact (total P wp) (total P (wdel P (<[KRec := m]> wp) (KUser n) all32).1)
    (wdel P (<[KRec := m]> wp) (KUser n) all32).2.
Proof.
  intros Hwp. pose proof (wdel_agg P (<[KRec := m]> wp) (KUser n) all32 ltac:(done)) as Hag.
  rewrite wdel_unfold in * by done.
  rewrite wget_insert_ne by done. rewrite (agg_ok_get P wp) by apply Hwp.
  set (wp3 := delete KNil (wdel_raw (<[KRec := m]> wp) (KUser n) all32)) in *. simpl in *.
  replace (total P wp) with ((others wp .&^ omit P) .&^ internal P) by (unfold total, internal; bits).
  case_bool_decide as E; simpl in *.
  - replace (total P wp3) with (0 .&^ internal P); [apply strip_diff_exact|].
    unfold total. replace (others wp3) with 0%N; [done|]. rewrite E. unfold others.
    by rewrite delete_empty, joinall_empty.
  - replace (total P (<[KNil := joinall wp3 .&^ omit P]> wp3)) with (joinall wp3 .&^ internal P);
      [apply strip_diff_exact|].
    unfold total. f_equal. unfold others. rewrite delete_insert_delete. unfold wp3. by rewrite delete_idemp.
Qed.

Lemma wdelmin_spec m wp n :
  wp_ok wp → min_ok m →
  let r := wdelmin P m wp (KUser n) all32 in
  wp_ok r.1 ∧
  (∀ k, k ≠ KNil → k ≠ KRec → r.1 !! k = if bool_decide (k = KUser n) then None else wp !! k) ∧
  (r.1 !! KRec =
    match wp !! KRec with
    | None => None
    | Some old =>
        if bool_decide (old .& rest m wp (KUser n) = 0) then None
        else Some (m .| (old .& rest m wp (KUser n)) .| (old .& internal P) .| Create P)
    end) ∧
  diff_exact (total P wp) (total P r.1) r.2.
Proof.
  intros Hwp [Hm32 Hm] r. pose proof Hwp as [Hag H32 Hrec Huser]. unfold r, wdelmin. clear r.
  destruct (wp !! KRec) as [old|] eqn:Eold.
  2:{ split_and!.
    - split.
      + by apply wdel_agg.
      + apply u32_from_agg; [by apply wdel_agg|]. intros k e Hk.
        rewrite wdel_get by done. case_bool_decide; [|apply H32].
        case_match; [done|]. intros [= <-]. apply u32_ldiff. by apply u32_wget.
      + intros r0. rewrite wdel_get by done. rewrite bool_decide_false by done. by rewrite Eold.
      + intros n' e. rewrite wdel_get by done. case_bool_decide; [|apply Huser].
        case_match; [done|]. intros [= <-]. destruct (wp !! KUser n) eqn:E.
        * apply wget_Some in E as E'. rewrite E'. apply Huser in E. bits.
        * rewrite wget_None by done. bits.
    - intros k Hk Hk'. rewrite wdel_get by done. case_bool_decide; [|done].
      rewrite u32_all by (by apply u32_wget). done.
    - rewrite wdel_get by done. by rewrite bool_decide_false.
    - by apply wdel_diff. }
  pose proof (wdel_diff_stale m wp n Hwp) as Hd.
  destruct (wdel P (<[KRec:=m]> wp) (KUser n) all32) as [wp1 d] eqn:Ewd.
  assert (wp1 = (wdel P (<[KRec:=m]> wp) (KUser n) all32).1) as Hwp1 by (by rewrite Ewd).
  simpl in Hd.
  assert (others wp1 = m .| others (delete (KUser n) (delete KRec wp))) as Hoth.
  { rewrite Hwp1, others_rec_split. rewrite u32_all by (by apply u32_wget). by rewrite N.lor_0_r. }
  assert (total P wp1 = rest m wp (KUser n)) as Htot by (unfold total; by rewrite Hoth).
  assert (agg_ok P wp1) as Hag1 by (rewrite Hwp1; by apply wdel_agg).
  assert (∀ k, k ≠ KNil → k ≠ KRec → wp1 !! k = if bool_decide (k = KUser n) then None else wp !! k) as Hget.
  { intros k Hk Hk'. rewrite Hwp1, wdel_get by done. case_bool_decide.
    - rewrite wget_insert_ne by done. by rewrite u32_all by (by apply u32_wget).
    - by rewrite lookup_insert_ne. }
  assert (wp1 !! KRec = Some m) as Hgr.
  { rewrite Hwp1, wdel_get by done. rewrite bool_decide_false by done. by rewrite lookup_insert. }
  assert (u32 (others wp1)) as Hu1.
  { rewrite Hoth. apply u32_lor; [done|]. apply u32_others. intros k e [_ [_ ?]%lookup_delete_Some]%lookup_delete_Some. eauto. }
  assert (incl_ev recbits old) as Hold by (by apply Hrec).
  assert (incl_ev (vis old) (total P wp)) as Hold2.
  { unfold vis, total. rewrite (others_split_rec wp), (wget_Some _ _ _ Eold). clear. bits. }
  set (D1 := rest m wp (KUser n)) in *.
  (* bits of the internal entry that survive *)
  assert (old .&^ (d.1 .&^ d.2) = (old .& D1) .| (old .& internal P)) as Hold'.
  { assert (disj_ev D1 (internal P)) as HD1 by (unfold D1, rest, vis; clear; bits).
    assert (disj_ev (total P wp) (internal P)) as HD0 by (unfold total; clear; bits).
    unfold vis in Hold2. destruct Hd as [[Heq ->]|[Hne ->]]; simpl.
    - rewrite Htot in Heq. rewrite Heq in Hold2. clear - HD1 Hold2. bits.
    - rewrite Htot. clear - HD1 HD0 Hold2. bits. }
  cbn zeta. rewrite Hold'.
  assert ((old .& D1 .| old .& internal P) .| internal P =? internal P = bool_decide (old .& D1 = 0)) as Hb.
  { assert (disj_ev D1 (internal P)) as HD1 by (unfold D1, rest, vis; clear; bits).
    destruct (N.eqb_spec ((old .& D1 .| old .& internal P) .| internal P) (internal P)) as [H|H].
    - rewrite bool_decide_true; [done|]. clear - H HD1. bits.
    - rewrite bool_decide_false; [done|]. intros H1. apply H. rewrite H1. clear. bits. }
  rewrite Hb. case_bool_decide as Hz; cbn [fst snd].
  - (* the internal entry goes *)
    assert (m = 0) as ->.
    { destruct Hm as [|Hm]; [done|]. exfalso.
      assert (incl_ev (Create P) (old .& D1)) as Hc.
      { unfold D1, rest, vis. unfold recbits in *. pose proof (d_cr_int P HP) as Hci. clear - Hm Hold Hci. bits. }
      rewrite Hz in Hc. by apply nz_incl_create in Hc. }
    set (wp2 := delete KRec wp1).
    assert (others wp2 = others wp1) as Ho2.
    { rewrite (others_split_rec wp1), (wget_Some _ _ _ Hgr). unfold wp2. by rewrite N.lor_0_l. }
    assert (wp2 !! KNil = Some (others wp1 .&^ omit P)) as Hnil.
    { unfold wp2. rewrite lookup_delete_ne by done. unfold agg_ok in Hag1. rewrite Hag1.
      rewrite bool_decide_false; [done|]. eapply delete_ne_empty; [|exact Hgr]. done. }
    rewrite Hnil.
    set (wp3 := if (size wp2 =? 1)%nat && (others wp1 .&^ omit P =? 0) then delete KNil wp2 else wp2).
    assert (∀ k, k ≠ KNil → wp3 !! k = wp2 !! k) as H3.
    { intros k Hk. unfold wp3. destruct (_ && _); [by rewrite lookup_delete_ne|done]. }
    assert (others wp3 = others wp1) as Ho3.
    { rewrite <-Ho2. apply others_ext. intros k Hk. unfold wget. by rewrite H3. }
    assert (delete KNil wp2 = ∅ ↔ size wp2 = 1%nat) as Hsz.
    { rewrite <-(insert_delete wp2 KNil _ Hnil). rewrite map_size_insert_None by apply lookup_delete.
      rewrite insert_delete by done. split; [intros ->; by rewrite map_size_empty|].
      intros H. apply map_size_empty_inv. lia. }
    assert (agg_ok P wp3) as Hag3.
    { unfold agg_ok. rewrite Ho3. unfold wp3. destruct (Nat.eqb_spec (size wp2) 1) as [Es|Es]; simpl.
      - apply Hsz in Es. assert (others wp1 = 0) as Ho0.
        { rewrite <-Ho2. unfold others. by rewrite Es, joinall_empty. }
        rewrite Ho0. simpl. rewrite lookup_delete, delete_idemp. by rewrite bool_decide_true.
      - rewrite bool_decide_false; [done|]. intros H. apply Es. by apply Hsz. }
    assert (∀ k, k ≠ KNil → k ≠ KRec → wp3 !! k = if bool_decide (k = KUser n) then None else wp !! k) as Hget3.
    { intros k Hk Hk'. rewrite H3 by done. unfold wp2. rewrite lookup_delete_ne by done. by apply Hget. }
    assert (wp3 !! KRec = None) as Hr3 by (rewrite H3 by done; apply lookup_delete).
    split_and!.
    + split; [done| | |].
      * intros k e. destruct (decide (k = KNil)) as [->|Hk].
        -- unfold agg_ok in Hag3. rewrite Hag3. case_bool_decide; [done|]. intros [= <-].
           rewrite Ho3. by apply u32_ldiff.
        -- destruct (decide (k = KRec)) as [->|Hk']; [by rewrite Hr3|].
           rewrite Hget3 by done. case_bool_decide; [done|]. apply H32.
      * by rewrite Hr3.
      * intros n' e. rewrite Hget3 by done. case_bool_decide; [done|]. apply Huser.
    + done.
    + done.
    + unfold total at 2. rewrite Ho3. done.
  - (* the internal entry stays *)
    rewrite (surjective_pairing (wadd P wp1 KRec _)). cbn [fst snd].
    set (x := (old .& D1 .| old .& internal P) .| Create P).
    assert (total P (wadd P wp1 KRec x).1 = D1 .| Create P) as Htot2.
    { rewrite total_wadd, Htot by done. unfold x. assert (disj_ev D1 (internal P)) as HD1 by (unfold D1, rest, vis; clear; bits).
      pose proof (d_cr_int P HP) as Hci. clear - HD1 Hci. bits. }
    assert (u32 x) as Hx32.
    { unfold x. apply u32_lor; [|apply u32_create]. apply u32_lor; apply u32_land; by eapply H32. }
    split_and!.
    + split.
      * by apply agg_ok_wadd.
      * intros k e. destruct (decide (k = KNil)) as [->|Hk].
        -- rewrite wadd_lookup_nil. intros [= <-]. apply u32_ldiff, u32_lor; [|done].
           rewrite wget_insert_ne by done. rewrite (agg_ok_get P wp1) by done. by apply u32_ldiff.
        -- rewrite wadd_get by done. case_bool_decide.
           ++ intros [= <-]. rewrite (wget_Some _ _ _ Hgr). by apply u32_lor.
           ++ rewrite Hget by done. case_bool_decide; [done|]. apply H32.
      * intros r. rewrite wadd_get by done. rewrite bool_decide_true by done. intros [= <-].
        unfold x, recbits, internal in *. clear - Hold. bits.
      * intros n' e. rewrite wadd_get by done. rewrite bool_decide_false by done.
        rewrite Hget by done. case_bool_decide; [done|]. apply Huser.
    + intros k Hk Hk'. rewrite wadd_get by done. rewrite bool_decide_false by done. by apply Hget.
    + rewrite wadd_get by done. rewrite bool_decide_true by done. rewrite (wget_Some _ _ _ Hgr).
      f_equal. unfold x. clear. bits.
    + rewrite Htot2. unfold is_none. destruct Hd as [[Heq ->]|[Hne ->]]; simpl.
      * left. split; [|done]. rewrite Heq, Htot.
        rewrite Htot in Heq. rewrite Heq in Hold2.
        assert (incl_ev (Create P) D1) as Hc1; [|clear - Hc1; bits].
        unfold recbits, vis in *. pose proof (d_cr_int P HP) as Hci. clear - Hold Hold2 Hci. bits.
      * rewrite Htot in *. destruct ((total P wp =? 0) && (D1 =? 0)) eqn:E0.
        { apply andb_true_iff in E0 as [E1%N.eqb_eq E2%N.eqb_eq]. congruence. }
        destruct (N.eqb_spec (D1 .| Create P) (total P wp)) as [E1|E1]; [by left|].
        right. split; [|done]. by apply not_eq_sym.
Qed.
End wp.
