(** * Property theorems C76: Sys and String of events *)
From Verif Require Import Base Event Paths Clean Trigger SpecTrigger TriggerFacts TriggerEx EventSys SpecSys.
From Verif Require Inotify InotifyFacts InotifyTab Prop_Inotify Fsev FsevFacts Readdcw EventString Prop_String TriggerTab Prop_Trigger.
Local Open Scope N_scope.

(** ** Linux *)
(** Sys is what the documentation says, and it is the record the event was made of: its
    descriptor, mask and cookie (the length is always 0). *)
Theorem C76_linux m rs e : e ∈ Inotify.sent m rs → doc_inotify (sys_inotify e) ∧
  ∃ r w, r ∈ rs ∧ m !! Inotify.r_wd r = Some w ∧ sys_inotify e = SInotify (Inotify.r_wd r) (Inotify.r_mask r) (Inotify.r_cookie r) 0 ∧
    Inotify.ie_path e = match Inotify.r_name r with [] => Inotify.w_path w | nm => Inotify.fjoin (Inotify.w_path w) nm end ∧
    incl_ev (Inotify.ie_event e) (Inotify.w_mask w).
Proof.
  intros He. split; [unfold doc_inotify, sys_inotify; by eauto|].
  apply InotifyTab.elem_of_sent in He as (r&Hr&He). destruct (InotifyTab.transform1_cases m r) as [Ht|(w&H1&H2&H3)].
  { rewrite Ht in He. by destruct He. }
  pose proof (InotifyTab.transform1_Some m r w H1 H2 H3) as Ht. cbn zeta in Ht. rewrite Ht in He. clear Ht. cbn [fst snd] in He.
  exists r, w. split; [done|]. destruct He as [He|He].
  - destruct (N.eqb_spec (Inotify.decode (Inotify.w_mask w) (Inotify.r_mask r)).1 0) as [|Hn]; [done|]. injection He as <-.
    split_and!; [done|done|done|]. eapply Prop_Inotify.C36_only_requested. by left.
  - destruct (Inotify.decode (Inotify.w_mask w) (Inotify.r_mask r)).2 as [x|] eqn:Hd; [|done]. injection He as <-.
    split_and!; [done|done|done|]. eapply Prop_Inotify.C36_only_requested. right. exact Hd.
Qed.

(** *** Renames *)
Definition F := Inotify.InMovedFrom. Definition D := Inotify.InMovedTo.
Definition is_ev (x k : N) (e : Inotify.ievent) : Prop := Inotify.ie_event e = x ∧ Inotify.ie_cookie e = k.
#[global] Instance is_ev_dec x k e : Decision (is_ev x k e).
Proof. unfold is_ev. apply _. Defined.
Definition found (x k : N) (es : list Inotify.ievent) : option str := Inotify.ie_path <$> head (filter (is_ev x k) es).
Definition both (a c : option str) : option (str * str) :=
  match a, c with Some x, Some y => Some (x, y) | _, _ => None end.
Definition pending (a c : option str) : option (str * str) :=
  match a, c with
  | None, None => None
  | Some x, None => Some (x, [])
  | None, Some y => Some ([], y)
  | Some _, Some _ => None
  end.
Lemma filter_app_le {A} (Q : A → Prop) `{∀ a, Decision (Q a)} l a : Q a → (length (filter Q (l ++ [a])) ≤ 1)%nat → filter Q l = [].
Proof.
  intros Hq. rewrite filter_app, filter_cons_True, filter_nil, app_length by done. cbn. intros Hl. apply length_zero_iff_nil. lia.
Qed.
Lemma found_app x k es e : found x k (es ++ [e]) = match found x k es with Some p => Some p | None => if decide (is_ev x k e) then Some (Inotify.ie_path e) else None end.
Proof.
  unfold found. rewrite filter_app. destruct (filter (is_ev x k) es) as [|a l]; [|done]. rewrite app_nil_l, filter_cons, filter_nil. by case_decide.
Qed.
Lemma FD : F ≠ D. Proof. done. Qed.
Lemma pair_inv es :
  (∀ e, e ∈ es → move_event e ∧ Inotify.ie_path e ≠ []) →
  (∀ x k, x = F ∨ x = D → k ≠ 0 → (length (filter (is_ev x k) es) ≤ 1)%nat) →
  let acc := foldl pair1 (∅, []) es in
  (∀ k, k ≠ 0 → acc.1 !! k = pending (found F k es) (found D k es)) ∧
  (∀ k v, (k, v) ∈ acc.2 ↔ k ≠ 0 ∧ both (found F k es) (found D k es) = Some v) ∧ NoDup acc.2.*1.
Proof.
  induction es as [|e es IH] using rev_ind; intros Hm Hu; cbn zeta.
  { cbn. split_and!; [done| |constructor]. intros k v. split; [by intros ?%elem_of_nil|]. by intros [_ ?]. }
  rewrite foldl_app. cbn [foldl].
  destruct IH as (H1&H2&H3).
  { intros e' He'. apply Hm, elem_of_app. by left. }
  { intros x k Hx Hk. specialize (Hu x k Hx Hk). rewrite filter_app, app_length in Hu. lia. }
  destruct (foldl pair1 (∅, []) es) as [moves out]. cbn [fst snd] in H1, H2, H3.
  destruct (Hm e) as [Hev Hp]; [apply elem_of_app; right; left|].
  assert (∀ x k, is_ev x k e → (x = F ∨ x = D) → k ≠ 0 → found x k es = None) as Hnew.
  { intros x k Hx Hfd Hk. unfold found. by rewrite (filter_app_le _ es e Hx (Hu x k Hfd Hk)). }
  set (k0 := Inotify.ie_cookie e).
  assert (∀ x k, k ≠ k0 → found x k (es ++ [e]) = found x k es) as Hother.
  { intros x k Hk. rewrite found_app. destruct (found x k es); [done|]. rewrite decide_False; [done|]. intros [_ He]. by apply Hk. }
  unfold pair1, sys_inotify. fold k0.
  destruct (default ([], []) (moves !! k0)) as [f t] eqn:Hft.
  destruct (decide (k0 = 0)) as [Hz|Hz].
  { rewrite Hz. cbn [N.eqb negb andb].
    destruct (if Inotify.ie_event e =? Inotify.InMovedFrom then _ else _) as [f' t'].
    split_and!; cbn [fst snd]; [| |done].
    - intros k Hk. rewrite lookup_insert_ne by done. rewrite !Hother by congruence. by apply H1.
    - intros k v. rewrite H2. split; intros [Hk Hv]; (split; [done|]).
      + rewrite !Hother by congruence. done.
      + rewrite !Hother in Hv by congruence. done. }
  rewrite (proj2 (N.eqb_neq k0 0) Hz). cbn [negb andb]. rewrite (H1 k0 Hz) in Hft.
  assert (∀ x q, found x k0 es = Some q → q ≠ []) as Hne.
  { intros x q Hq. unfold found in Hq. destruct (filter (is_ev x k0) es) as [|a l] eqn:Hl; [done|]. cbn in Hq. injection Hq as <-.
    apply Hm, elem_of_app. left. assert (a ∈ filter (is_ev x k0) es) as Ha by (rewrite Hl; left). by apply elem_of_list_filter in Ha as [_ ?]. }
  assert (out_of : ∀ k v, (k, v) ∈ out → k = k0 → both (found F k0 es) (found D k0 es) = Some v).
  { intros k v Hin ->. by apply H2 in Hin as [_ ?]. }
  destruct Hev as [Hev|Hev]; fold F in Hev |- *; fold D in Hev |- *; rewrite Hev.
  - (* source *)
    assert (is_ev F k0 e) as Hx by done. pose proof (Hnew F k0 Hx (or_introl eq_refl) Hz) as Hn. rewrite Hn in Hft.
    assert (found F k0 (es ++ [e]) = Some (Inotify.ie_path e)) as HF by (rewrite found_app, Hn, decide_True; done).
    assert (found D k0 (es ++ [e]) = found D k0 es) as HD.
    { rewrite found_app. destruct (found D k0 es); [done|]. rewrite decide_False; [done|]. intros [He _]. rewrite Hev in He. by apply FD. }
    rewrite N.eqb_refl. rewrite bool_decide_eq_true_2 by done. cbn [andb].
    destruct (found D k0 es) as [q|] eqn:Hq.
    + cbn in Hft. injection Hft as <- <-. rewrite bool_decide_eq_true_2 by (by eapply Hne). cbn [fst snd]. split_and!.
      * intros k Hk. destruct (decide (k = k0)) as [->|Hk0]; [rewrite lookup_delete, HF, HD; done|]. rewrite lookup_delete_ne by done. rewrite !Hother by done. by apply H1.
      * intros k v. rewrite elem_of_app, elem_of_list_singleton, H2. destruct (decide (k = k0)) as [->|Hk0].
        -- rewrite HF, HD, Hn. cbn. split; [intros [[_ ?]|[= <-]]; done|]. intros [_ [= <-]]. by right.
        -- rewrite !Hother by done. split; [intros [?|[= ?]]; done|by left].
      * rewrite fmap_app. apply NoDup_app. split_and!; [done| |apply NoDup_singleton].
        intros k Hk Hk'. apply elem_of_list_singleton in Hk' as ->. cbn in Hk. apply elem_of_list_fmap in Hk as ([k v]&Heq&Hin). cbn in Heq.
        rewrite <-Heq in Hin. pose proof (out_of k0 v Hin eq_refl) as Hb. rewrite Hn in Hb. done.
    + cbn in Hft. injection Hft as <- <-. rewrite bool_decide_eq_false_2 by (by intros ?). cbn [fst snd]. split_and!; [| |done].
      * intros k Hk. destruct (decide (k = k0)) as [->|Hk0]; [by rewrite lookup_insert, HF, HD|]. rewrite lookup_insert_ne by done. rewrite !Hother by done. by apply H1.
      * intros k v. rewrite H2. destruct (decide (k = k0)) as [->|Hk0]; [|by rewrite !Hother by done]. rewrite HF, HD, Hn. cbn. split; by intros [_ ?].
  - (* destination *)
    assert (is_ev D k0 e) as Hx by done. pose proof (Hnew D k0 Hx (or_intror eq_refl) Hz) as Hn. rewrite Hn in Hft.
    assert (found D k0 (es ++ [e]) = Some (Inotify.ie_path e)) as HD by (rewrite found_app, Hn, decide_True; done).
    assert (found F k0 (es ++ [e]) = found F k0 es) as HF.
    { rewrite found_app. destruct (found F k0 es); [done|]. rewrite decide_False; [done|]. intros [He _]. rewrite Hev in He. by apply FD. }
    rewrite (proj2 (N.eqb_neq D F)) by done. rewrite N.eqb_refl. rewrite (bool_decide_eq_true_2 (Inotify.ie_path e ≠ [])) by done. rewrite andb_true_r.
    destruct (found F k0 es) as [q|] eqn:Hq.
    + cbn in Hft. injection Hft as <- <-. rewrite bool_decide_eq_true_2 by (by eapply Hne). cbn [fst snd]. split_and!.
      * intros k Hk. destruct (decide (k = k0)) as [->|Hk0]; [rewrite lookup_delete, HF, HD; done|]. rewrite lookup_delete_ne by done. rewrite !Hother by done. by apply H1.
      * intros k v. rewrite elem_of_app, elem_of_list_singleton, H2. destruct (decide (k = k0)) as [->|Hk0].
        -- rewrite HF, HD, Hn, Hq. cbn. split; [intros [[_ ?]|[= <-]]; done|]. intros [_ [= <-]]. by right.
        -- rewrite !Hother by done. split; [intros [?|[= ?]]; done|by left].
      * rewrite fmap_app. apply NoDup_app. split_and!; [done| |apply NoDup_singleton].
        intros k Hk Hk'. apply elem_of_list_singleton in Hk' as ->. cbn in Hk. apply elem_of_list_fmap in Hk as ([k v]&Heq&Hin). cbn in Heq.
        rewrite <-Heq in Hin. pose proof (out_of k0 v Hin eq_refl) as Hb. rewrite Hn in Hb. done.
    + cbn in Hft. injection Hft as <- <-. rewrite bool_decide_eq_false_2 by (by intros ?). cbn [fst snd]. split_and!; [| |done].
      * intros k Hk. destruct (decide (k = k0)) as [->|Hk0]; [by rewrite lookup_insert, HF, HD|]. rewrite lookup_insert_ne by done. rewrite !Hother by done. by apply H1.
      * intros k v. rewrite H2. destruct (decide (k = k0)) as [->|Hk0]; [|by rewrite !Hother by done]. rewrite HF, HD, Hq. cbn. split; by intros [_ ?].
Qed.
Lemma generic_not_move m r e : (Inotify.transform1 m r).1 = Some e → ¬ move_event e.
Proof.
  intros He Hm. destruct (InotifyTab.transform1_cases m r) as [Ht|(w&H1&H2&H3)]; [by rewrite Ht in He|].
  pose proof (InotifyTab.transform1_Some m r w H1 H2 H3) as Ht. cbn zeta in Ht. rewrite Ht in He. clear Ht. cbn [fst snd] in He.
  destruct (N.eqb_spec (Inotify.decode (Inotify.w_mask w) (Inotify.r_mask r)).1 0) as [|Hn]; [done|]. injection He as <-.
  destruct (Prop_Inotify.C36_generic_sound _ _ Hn) as (n&Hg&_&_). unfold move_event in Hm. cbn [Inotify.ie_event] in Hm.
  unfold SpecInotify.generics in Hg. repeat (apply elem_of_cons in Hg as [Hg|Hg]; [injection Hg as Hg _; rewrite Hg in Hm; by destruct Hm|]). by apply elem_of_nil in Hg.
Qed.
Lemma native_ev m r e : (Inotify.transform1 m r).2 = Some e ↔
  ∃ w, Inotify.r_mask r .& (Inotify.IN_IGNORED .| Inotify.IN_Q_OVERFLOW) = 0 ∧ m !! Inotify.r_wd r = Some w ∧
    Inotify.r_mask r .& Inotify.encode (Inotify.w_mask w) ≠ 0 ∧ Inotify.w_mask w .& Inotify.r_mask r ≠ 0 ∧
    e = Inotify.IE (Inotify.r_wd r) (Inotify.r_mask r) (Inotify.r_cookie r)
      (match Inotify.r_name r with [] => Inotify.w_path w | nm => Inotify.fjoin (Inotify.w_path w) nm end) (Inotify.w_mask w .& Inotify.r_mask r).
Proof.
  split.
  - intros He. destruct (InotifyTab.transform1_cases m r) as [Ht|(w&H1&H2&H3)]; [by rewrite Ht in He|].
    pose proof (InotifyTab.transform1_Some m r w H1 H2 H3) as Ht. cbn zeta in Ht. rewrite Ht in He. clear Ht. cbn [fst snd] in He.
    destruct (Inotify.decode (Inotify.w_mask w) (Inotify.r_mask r)).2 as [x|] eqn:Hd; [|done]. injection He as <-.
    apply Prop_Inotify.C36_native in Hd as [-> Hx]. exists w. by split_and!.
  - intros (w&H1&H2&H3&H4&->). pose proof (InotifyTab.transform1_Some m r w H1 H2 H3) as Ht. cbn zeta in Ht. rewrite Ht. cbn [fst snd].
    rewrite (proj2 (Prop_Inotify.C36_native (Inotify.w_mask w) (Inotify.r_mask r) _) (conj eq_refl H4)). done.
Qed.
Lemma filter_none {A} (Q : A → Prop) `{∀ a, Decision (Q a)} l : (∀ a, a ∈ l → ¬ Q a) → filter Q l = [].
Proof.
  induction l as [|a l IH]; [done|]. intros Hq. rewrite filter_cons_False by (apply Hq; left). apply IH. intros a' Ha'. apply Hq. by right.
Qed.
Lemma sent_moves m rs : filter move_event (Inotify.sent m rs) = filter move_event (omap (λ r, (Inotify.transform1 m r).2) rs).
Proof.
  unfold Inotify.sent, Inotify.transform. rewrite omap_app, filter_app, filter_none, app_nil_l.
  - f_equal. induction rs as [|r rs IH]; [done|]. cbn. destruct (Inotify.transform1 m r).2; cbn; by rewrite IH.
  - intros e (o&Ho&He)%elem_of_list_omap. cbn in He. subst o. apply elem_of_list_fmap in Ho as (y&Hy&Hin). apply elem_of_list_fmap in Hin as (r&->&_).
    by eapply generic_not_move.
Qed.
Lemma moves_cons x bs : moves_seen (x :: bs) = filter move_event (omap (λ r, (Inotify.transform1 x.1 r).2) x.2) ++ moves_seen bs.
Proof. unfold moves_seen, all_sent. rewrite bind_cons, filter_app. by rewrite sent_moves. Qed.
Lemma elem_moves bs e : e ∈ moves_seen bs ↔ ∃ m rs r, (m, rs) ∈ bs ∧ r ∈ rs ∧ (Inotify.transform1 m r).2 = Some e ∧ move_event e.
Proof.
  induction bs as [|[m rs] bs IH].
  - split; [by intros ?%elem_of_nil|]. intros (?&?&?&H&_). by apply elem_of_nil in H.
  - rewrite moves_cons, elem_of_app, IH, elem_of_list_filter, elem_of_list_omap. cbn [fst snd]. split.
    + intros [[Hm (r&Hr&He)]|(m'&rs'&r&H1&H2)]; [exists m, rs, r|exists m', rs', r]; (split; [|done]); [left|by right].
    + intros (m'&rs'&r&[Heq|H1]%elem_of_cons&H2&H3&H4); [left; injection Heq as -> ->; eauto|right; by exists m', rs', r].
Qed.
Lemma is_of_move m r e x k : (x = F ∨ x = D) → (Inotify.transform1 m r).2 = Some e → is_ev x k e → of_move x k r.
Proof.
  intros Hx He [Hev Hk]. apply native_ev in He as (w&_&_&_&_&->). cbn [Inotify.ie_event Inotify.ie_cookie] in *. split; [|done].
  rewrite <-Hev. intros H0. assert (x = 0) as Hz; [|by destruct Hx as [-> | ->]]. rewrite <-Hev.
  apply has_ext. intros i. split; [|intros Hi; by apply has_0 in Hi]. intros Hi. exfalso.
  assert (has 0 i) as H; [|by apply has_0 in H]. rewrite <-H0. apply has_land. split; [|done]. by apply has_land in Hi as [_ ?].
Qed.
Lemma count_moves x k bs : (x = F ∨ x = D) → (length (filter (is_ev x k) (moves_seen bs)) ≤ length (filter (of_move x k) (records bs)))%nat.
Proof.
  intros Hx. induction bs as [|[m rs] bs IH]; [done|]. rewrite moves_cons. unfold records in *. rewrite fmap_cons. cbn [concat fst snd].
  rewrite !filter_app, !app_length. apply Nat.add_le_mono; [|done]. clear IH.
  induction rs as [|r rs IH]; [done|]. cbn [omap list_omap]. rewrite (filter_cons (of_move x k)).
  destruct (Inotify.transform1 m r).2 as [e|] eqn:He.
  - rewrite (filter_cons move_event). case_decide as Hm.
    + rewrite (filter_cons (is_ev x k)). case_decide as Hi.
      * rewrite decide_True by (by eapply is_of_move). cbn. lia.
      * case_decide; cbn; lia.
    + case_decide; cbn; lia.
  - case_decide; cbn; lia.
Qed.
Lemma found_one x k es p : (length (filter (is_ev x k) es) ≤ 1)%nat → found x k es = Some p ↔ ∃ e, e ∈ es ∧ is_ev x k e ∧ Inotify.ie_path e = p.
Proof.
  intros Hl. unfold found. split.
  - intros Hp. destruct (filter (is_ev x k) es) as [|a l] eqn:Hf; [done|]. cbn in Hp. injection Hp as Hp. exists a.
    assert (a ∈ filter (is_ev x k) es) as [Ha Hin]%elem_of_list_filter by (rewrite Hf; left). done.
  - intros (e&He&Hi&<-). assert (e ∈ filter (is_ev x k) es) as Hin by (by apply elem_of_list_filter).
    destruct (filter (is_ev x k) es) as [|a [|a' l]]; [by apply elem_of_nil in Hin| |cbn in Hl; lia]. apply elem_of_list_singleton in Hin as ->. done.
Qed.
Lemma clean_ne s : Clean.clean s ≠ [].
Proof.
  unfold Clean.clean. assert (Forall (λ c, c ≠ []) (clean_comps (isabs s) (splits s))) as H.
  { unfold clean_comps. apply Forall_reverse. assert (∀ l acc, Forall (λ c : str, c ≠ []) acc → Forall (λ c, c ≠ []) (foldl (clean_step (isabs s)) acc l)) as H; [|by apply H].
    intros l. induction l as [|c l IH]; intros acc Ha; [done|]. cbn [foldl]. apply IH. unfold clean_step.
    case_decide as Hc; [done|]. assert (c ≠ []) as Hne by (intros ->; apply Hc; by left).
    case_decide; [|by constructor]. destruct acc as [|a acc]; [destruct (isabs s); [done|by repeat constructor]|].
    apply Forall_cons in Ha as [Ha Hs]. case_decide; [by repeat constructor|done]. }
  destruct (clean_comps (isabs s) (splits s)) as [|c l]; [by destruct (isabs s)|]. apply Forall_cons in H as [Hc _].
  destruct (isabs s); [done|]. destruct l; [done|]. cbn. destruct c; done.
Qed.
Lemma fjoin_ne a c : c ≠ [] → Inotify.fjoin a c ≠ [].
Proof.
  intros Hc. unfold Inotify.fjoin. destruct a as [|x a], c as [|y c]; try done; apply clean_ne.
Qed.
Lemma half_found bs x k p : (x = F ∨ x = D) → k ≠ 0 → kernel_moves (records bs) → real_tables bs →
  found x k (moves_seen bs) = Some p ↔ half bs x k p.
Proof.
  intros Hx Hk0 Hk Ht. rewrite found_one by (etrans; [by apply count_moves|by apply (km_cookie _ Hk)]).
  assert (∃ j, x = 2 ^ j ∧ j < 12) as (j&Hj&Hj12) by (destruct Hx as [-> | ->]; [exists 6|exists 7]; done).
  assert (∀ m rs r, (m, rs) ∈ bs → r ∈ rs → r ∈ records bs) as Hrec.
  { intros m rs r Hb Hr. apply elem_of_list_In, in_concat. exists rs. split; apply elem_of_list_In; [|done].
    apply elem_of_list_fmap. by exists (m, rs). }
  split.
  - intros (e&He&Hi&<-). apply elem_moves in He as (m&rs&r&Hb&Hr&Htr&Hm). pose proof (is_of_move m r e x k Hx Htr Hi) as Ho.
    apply native_ev in Htr as (w&H1&H2&H3&H4&->). exists m, rs, r, w. destruct Hi as [Hev _]. cbn [Inotify.ie_event Inotify.ie_path] in *.
    split_and!; try done.
    + rewrite <-Hev. by intros i [? _]%has_land.
    + destruct (Inotify.r_name r) as [|c nm] eqn:Hn; [|done]. exfalso. apply (km_name _ Hk r); [by eapply Hrec| |done].
      intros H0. destruct Ho as [Ho _]. apply Ho. apply has_ext. intros i. split; [|intros Hi; by apply has_0 in Hi]. intros [Ha Hb']%has_land. exfalso.
      assert (has 0 i) as H; [|by apply has_0 in H]. rewrite <-H0. apply has_land. split; [done|]. apply has_lor. destruct Hx as [-> | ->]; auto.
  - intros (m&rs&r&w&Hb&Hr&Ho&H1&H2&H3&->). pose proof (Hrec _ _ _ Hb Hr) as Hin. destruct Ho as [Hox Hok].
    assert (has (Inotify.r_mask r) j) as Hrj.
    { apply nonzero_bit in Hox as [i [Hi1 Hi2]%has_land]. rewrite Hj in Hi2. apply InotifyFacts.has_pow2 in Hi2 as ->. done. }
    assert (has 0xfff j) as Hf by (change 0xfff with (N.ones 12); unfold has; by apply N.ones_spec_iff).
    assert (Inotify.r_mask r .& 0xfff = 2 ^ j) as Hone.
    { destruct (km_one _ Hk r Hin) as [i Hi].
      - apply nonzero_bit. exists j. by apply has_land.
      - assert (has (2 ^ i) j) as Hij by (rewrite <-Hi; by apply has_land). apply InotifyFacts.has_pow2 in Hij as ->. done. }
    assert (has (Inotify.w_mask w) j) as Hwj by (apply H3; rewrite Hj; by apply InotifyFacts.has_pow2).
    assert (SpecInotify.known (Inotify.w_mask w)) as Hkn.
    { destruct (Ht m rs Hb) as (tr&s&Hex&<-). destruct w as [wp wm]. by apply (InotifyTab.iv_m _ _ (InotifyTab.iexec_inv tr s Hex)) in H2 as [? _]. }
    assert (Inotify.w_mask w .& Inotify.r_mask r = x) as Heq.
    { rewrite Hj. apply has_ext. intros i. rewrite has_land, InotifyFacts.has_pow2. split; [|by intros ->]. intros [Hw Hm].
      assert (has 0xfff i) as Hi.
      { destruct (proj1 (has_lor _ _ _) (Hkn i Hw)) as [Ha|Ha]; [|done]. exfalso. by apply (km_bits _ Hk r Hin i). }
      assert (has (2 ^ j) i) as Hij by (rewrite <-Hone; by apply has_land). by apply InotifyFacts.has_pow2 in Hij. }
    assert ((Inotify.transform1 m r).2 = Some (Inotify.IE (Inotify.r_wd r) (Inotify.r_mask r) k (Inotify.fjoin (Inotify.w_path w) (Inotify.r_name r)) x)) as Htr.
    { apply native_ev. exists w. split_and!; try done.
      - apply nonzero_bit. exists j. apply has_land. split; [done|]. apply Prop_Inotify.C36_mask_exact. left. split; [done|].
        intros Ha. by apply (km_bits _ Hk r Hin j).
      - rewrite Heq. by destruct Hx as [-> | ->].
      - rewrite Heq, Hok. destruct (Inotify.r_name r) eqn:Hn; [|done]. exfalso. apply (km_name _ Hk r); [done| |done].
        apply nonzero_bit. exists j. apply has_land. split; [done|]. apply has_lor. rewrite Hj in Hx.
        destruct Hx as [Hx|Hx]; [left|right]; (replace (Inotify.InMovedFrom) with F by done; replace (Inotify.InMovedTo) with D by done; rewrite <-Hx; by apply InotifyFacts.has_pow2). }
    eexists. split; [apply elem_moves; exists m, rs, r; split_and!; [done|done|exact Htr|exact Hx]|]. split; done.
Qed.
(** The loop of the example reports exactly the renames whose source and destination are both
    in directories registered for the two events, each once, with the two paths -- in whatever
    order the two halves come, and however the records are spread over batches. *)
Theorem C76_renames bs : kernel_moves (records bs) → real_tables bs →
  let out := pair_all (moves_seen bs) in
  NoDup out.*1 ∧ ∀ k f t, (k, (f, t)) ∈ out ↔ k ≠ 0 ∧ half bs Inotify.InMovedFrom k f ∧ half bs Inotify.InMovedTo k t.
Proof.
  intros Hk Ht. cbn zeta. unfold pair_all. destruct (pair_inv (moves_seen bs)) as (_&H2&H3).
  { intros e (m&rs&r&Hb&Hr&He&Hm)%elem_moves. split; [done|].
    assert (∃ x, (x = F ∨ x = D) ∧ is_ev x (Inotify.ie_cookie e) e) as (x&Hx&Hi) by (destruct Hm as [Hm|Hm]; [exists F|exists D]; (split; [auto|done])).
    assert (r ∈ records bs) as Hin.
    { apply elem_of_list_In, in_concat. exists rs. split; apply elem_of_list_In; [|done]. apply elem_of_list_fmap. by exists (m, rs). }
    pose proof (is_of_move m r e x _ Hx He Hi) as [Ho _]. apply native_ev in He as (w&_&_&_&_&->). cbn [Inotify.ie_path].
    destruct (Inotify.r_name r) as [|c nm] eqn:Hn; [|by apply fjoin_ne]. exfalso. apply (km_name _ Hk r); [done| |done].
    apply nonzero_bit in Ho as [i [Ha Hb']%has_land]. apply nonzero_bit. exists i. apply has_land. split; [done|]. apply has_lor. destruct Hx as [-> | ->]; auto. }
  { intros x k Hx Hk0. etrans; [by apply count_moves|by apply (km_cookie _ Hk)]. }
  split; [done|]. intros k f t. rewrite H2. split.
  - intros [Hk0 Hb]. destruct (found F k (moves_seen bs)) as [f'|] eqn:Hf; [|done]. destruct (found D k (moves_seen bs)) as [t'|] eqn:Hd; [|done].
    injection Hb as -> ->. split; [done|]. split; [apply half_found in Hf|apply half_found in Hd]; auto.
  - intros (Hk0&Hf&Hd). split; [done|]. apply half_found in Hf; auto. apply half_found in Hd; auto. fold F in Hf. fold D in Hd. by rewrite Hf, Hd.
Qed.

(** ** macOS *)
Lemma dispatch1_from es k x ev o : o ∈ (Fsev.dispatch1 es k x ev).2 → o.1 = ev.
Proof.
  unfold Fsev.dispatch1. destruct (negb _); [by intros ?%elem_of_nil|]. destruct (negb _); [by intros ?%elem_of_nil|].
  destruct (_ && _); [by intros ?%elem_of_nil|]. destruct (Fsev.fs_base _ _ _ _); [|by intros ?%elem_of_nil].
  destruct (Fsev.strip _ _ _) as [y set]. destruct (_ =? 0); [by intros ?%elem_of_nil|]. cbn [snd]. by intros (e&->&_)%elem_of_list_fmap.
Qed.
Lemma dispatch_from x evs o : o ∈ (Fsev.fs_dispatch x evs).2 → o.1 ∈ evs.
Proof.
  unfold Fsev.fs_dispatch. assert (∀ es k l y out, (o ∈ out → o.1 ∈ evs) → (∀ ev, ev ∈ l → ev ∈ evs) →
    o ∈ (foldl (λ '(y, out) ev, let '(y, o) := Fsev.dispatch1 es k y ev in (y, out ++ o)) (y, out) l).2 → o.1 ∈ evs) as H.
  { intros es k l. induction l as [|ev l IH]; intros y out Ho Hl; [done|]. cbn [foldl].
    destruct (Fsev.dispatch1 es k y ev) as [y' o'] eqn:Hd. apply IH; [|intros; apply Hl; by right].
    rewrite elem_of_app. intros [?|Hin]; [by apply Ho|]. assert (o.1 = ev) as ->; [|apply Hl; left].
    apply (dispatch1_from es k y). by rewrite Hd. }
  apply H; [by intros ?%elem_of_nil|done].
Qed.
(** Sys is what the documentation says, and it is the report of FSEvents the event was made
    of, with its identifier and all its flags; Path is the path of the report. *)
Theorem C76_macos x ops o : o ∈ (Fsev.fs_hist x ops).2 → doc_fsevents (sys_fsevents o) ∧
  ∃ evs ev, Fsev.HBatch evs ∈ ops ∧ ev ∈ evs ∧ sys_fsevents o = SFSEvent (Fsev.fe_path ev) (Fsev.fe_id ev) (Fsev.fe_flags ev).
Proof.
  intros Ho. split; [unfold doc_fsevents, sys_fsevents; by eauto|].
  assert (∃ evs, Fsev.HBatch evs ∈ ops ∧ o.1 ∈ evs) as (evs&H1&H2); [|exists evs, o.1; done].
  unfold Fsev.fs_hist in Ho. revert Ho. assert (∀ l a, o ∈ (foldl Fsev.hstep a l).2 → o ∈ a.2 ∨ ∃ evs, Fsev.HBatch evs ∈ l ∧ o.1 ∈ evs) as H.
  { intros l. induction l as [|h l IH]; intros a Ho; [by left|]. cbn [foldl] in Ho. destruct (IH _ Ho) as [Ha|(evs&Hb&Hin)].
    - destruct h as [evs|e k]; [|by left]. cbn [Fsev.hstep] in Ha. destruct (Fsev.fs_dispatch a.1 evs) as [y out] eqn:Hd. cbn [snd] in Ha.
      apply elem_of_app in Ha as [?|Ha]; [by left|]. right. exists evs. split; [left|]. apply (dispatch_from a.1). by rewrite Hd.
    - right. exists evs. split; [by right|done]. }
  intros Ho. destruct (H _ _ Ho) as [Hn|?]; [by apply elem_of_nil in Hn|done].
Qed.

(** ** Windows *)
(** The documentation says nil; it is never nil, but tells what the watcher was asked about
    (directories or files) and 0 for writes. *)
Theorem C76_windows_refuted dir f l e : e ∈ Readdcw.loopevent dir f l →
  ¬ doc_readdcw (sys_readdcw e) ∧
  ∃ x, x ∈ l ∧ sys_readdcw e = SUint8 (if Readdcw.fn_action x =? Readdcw.FILE_ACTION_MODIFIED then 0 else if f .& dirmarker =? 0 then 1 else 2).
Proof.
  intros He. split; [done|]. apply elem_of_list_bind in He as (x&He&Hx). exists x. split; [done|].
  unfold Readdcw.send1 in He. destruct (Readdcw.rd_decode f (Readdcw.fn_action x)) as [e1 e2].
  assert (∃ v, e = Readdcw.RdEvent dir (Readdcw.fn_name x) (Readdcw.rd_ftype f (Readdcw.fn_action x)) v) as [v ->].
  { destruct ((e1 =? 0) && (e2 =? 0)); [by apply elem_of_nil in He|]. destruct (e1 =? 0); [apply elem_of_list_singleton in He; by eexists|].
    destruct (nonzero e2); rewrite ?elem_of_cons, elem_of_nil in He; destruct He as [He|He]; try destruct He as [He|He]; first [done|by eexists]. }
  unfold sys_readdcw. cbn [Readdcw.re_ftype]. unfold Readdcw.rd_ftype, nonzero. destruct (_ =? Readdcw.FILE_ACTION_MODIFIED); [done|].
  by destruct (f .& dirmarker =? 0).
Qed.

(** ** kqueue and FEN *)
Definition er (x : tstate * list pevent) : tstate * list tevent := (x.1, pe_ev <$> x.2).
Lemma er_foldl {A} (f : tstate * list pevent → A → tstate * list pevent) g l : (∀ x a, er (f x a) = g (er x) a) → ∀ x, er (foldl f x l) = foldl g (er x) l.
Proof. intros H. induction l as [|a l IH]; intros x; [done|]. cbn [foldl]. by rewrite IH, H. Qed.
Section trg.
Context (T : trig).
Lemma er_moved A w e x k : er (p_moved1 T A w e x k) = dir_moved1 T A w e (er x) k.
Proof.
  destruct x as [s evn]. unfold p_moved1, dir_moved1, er. cbn [fst snd]. destruct (has_prefix _ _); [|done]. cbn [fst snd].
  destruct (nonzero _); [|done]. by rewrite fmap_app.
Qed.
Lemma er_rescan n A w x fi : er (p_rescan1 T n A w x fi) = rescan1 T A w (er x) fi.
Proof.
  destruct x as [s evn]. unfold p_rescan1, rescan1, er. cbn [fst snd]. destruct (singlewatch _ _ _ _ _ _ _) as [s' r]. cbn [fst snd].
  destruct (_ && _); [by rewrite fmap_app|]. destruct r; try done. destruct (nonzero _); [by rewrite fmap_app|done].
Qed.
Lemma er_dir n s A ord i w e ge : er (p_dir T n s A ord i w e ge) = trg_dir T s A ord i w e ge.
Proof.
  unfold p_dir, trg_dir. destruct (nonzero (ge .& native_gone T)).
  - cbn zeta. destruct (nonzero (ge .& t_rename T)); [|done].
    pose proof (er_foldl (p_moved1 T A w e) (dir_moved1 T A w e) ord (er_moved A w e) (s, [PE (TE (tw_p w) (e .&^ Write (t_plat T) .&^ t_write T) true) (Some n)])) as H.
    unfold er at 2 in H. cbn [fst snd] in H. change (pe_ev <$> [PE (TE (tw_p w) (e .&^ Write (t_plat T) .&^ t_write T) true) (Some n)]) with [TE (tw_p w) (e .&^ Write (t_plat T) .&^ t_write T) true] in H.
    rewrite <-H. by destruct (foldl _ _ ord).
  - destruct (nonzero (ge .& t_write T)); [|done]. destruct (a_ls A (tw_p w)) as [ls|]; [|done].
    by rewrite (er_foldl (p_rescan1 T n A w) (rescan1 T A w) ls (er_rescan n A w) (s, [])).
Qed.
Lemma er_process s st A ord n : er (p_process T s st A ord n) = trg_process T s st A ord n.1 n.2.
Proof.
  destruct n as [k ge]. unfold p_process, trg_process. cbn [fst snd]. cbn zeta. destruct (t_Watched T _ k) as [i|]; [|done].
  destruct (ts_heap _ !! i) as [w|]; [|done]. set (s1 := if ge .& native_gone T =? 0 then _ else _).
  destruct (_ && _); [done|]. destruct (tw_dir w) eqn:Hd; [|by rewrite <-Hd].
  rewrite <-(er_dir (k, ge)). by destruct (p_dir T (k, ge) s1 A ord i w _ ge).
Qed.
Lemma moved_shape A w e l : ∀ s evn x, x ∈ (foldl (p_moved1 T A w e) (s, evn) l).2 →
  x ∈ evn ∨ (pe_pe x = None ∧ below (tw_p w) (te_p (pe_ev x))).
Proof.
  induction l as [|k l IH]; intros s evn x; [by left|]. cbn [foldl]. unfold p_moved1 at 2. destruct (has_prefix (tw_p w ++ [slash]) k) eqn:Hp; [|by apply IH].
  intros Hx. apply IH in Hx as [Hx|Hx]; [|by right]. destruct (nonzero _); [|by left]. apply elem_of_app in Hx as [?|Hx]; [by left|].
  apply elem_of_list_singleton in Hx as ->. right. split; [done|]. cbn. apply below_spec. unfold has_prefix in Hp. by apply bool_decide_eq_true in Hp.
Qed.
Lemma moved_head A w e l : ∀ s y evn, ∃ l', (foldl (p_moved1 T A w e) (s, y :: evn) l).2 = y :: evn ++ l' ∧ ∀ x, x ∈ l' → pe_pe x = None ∧ below (tw_p w) (te_p (pe_ev x)).
Proof.
  induction l as [|k l IH]; intros s y evn; [exists []; split; [by rewrite app_nil_r|by intros ? ?%elem_of_nil]|].
  cbn [foldl]. unfold p_moved1 at 2. destruct (has_prefix (tw_p w ++ [slash]) k) eqn:Hp; [|by apply IH].
  destruct (nonzero _); [|by apply IH].
  match goal with |- context [(y :: evn) ++ [?z]] => destruct (IH (singleunwatch T s A k MBoth).1 y (evn ++ [z])) as (l'&Hl&Hx); exists (z :: l') end.
  cbn [app]. rewrite Hl, <-app_assoc. split; [done|].
  intros x [->|Hin]%elem_of_cons; [|by apply Hx]. split; [done|]. cbn. apply below_spec. unfold has_prefix in Hp. by apply bool_decide_eq_true in Hp.
Qed.
Lemma rescan_shape n A w l : ∀ s evn x, x ∈ (foldl (p_rescan1 T n A w) (s, evn) l).2 → x ∈ evn ∨ pe_pe x = Some n.
Proof.
  induction l as [|fi l IH]; intros s evn x; [by left|]. cbn [foldl]. unfold p_rescan1 at 2. destruct (singlewatch _ _ _ _ _ _ _) as [s' r].
  intros Hx. apply IH in Hx as [Hx|Hx]; [|by right]. destruct (_ && _).
  { apply elem_of_app in Hx as [?|Hx]; [by left|]. apply elem_of_list_singleton in Hx as ->. by right. }
  destruct r; try (by left). destruct (nonzero _); [|by left]. apply elem_of_app in Hx as [?|Hx]; [by left|].
  apply elem_of_list_singleton in Hx as ->. by right.
Qed.
(** Processing a report makes the events Trigger.v says, and they carry the report -- except
    the events for what is below a directory that was renamed, which carry nil. *)
Theorem C76_trigger s st A ord k ge evn s' : tstep T s (TEvent st A ord k ge evn) s' →
  ∃ evp, p_process T s st A ord (k, ge) = (s', evp) ∧ evn = pe_ev <$> evp ∧
    match evp with
    | [] => True
    | x :: l => pe_pe x = Some (k, ge) ∧
        ∀ y, y ∈ l → if decide (ge .& t_rename T = 0) then pe_pe y = Some (k, ge) else pe_pe y = None ∧ below (te_p (pe_ev x)) (te_p (pe_ev y))
    end.
Proof.
  intros Hs. inversion Hs as [| | |? ? ? ? ? ? ? Hord Hp]; subst. pose proof (er_process s st A ord (k, ge)) as He. cbn [fst snd] in He. rewrite Hp in He.
  destruct (p_process T s st A ord (k, ge)) as [s1 evp] eqn:Hpp. unfold er in He. cbn [fst snd] in He. injection He as -> <-. exists evp. split_and!; [done|done|].
  unfold p_process in Hpp. cbn zeta in Hpp. destruct (t_Watched T _ k) as [i|]; [|by injection Hpp as _ <-].
  destruct (ts_heap _ !! i) as [w|]; [|by injection Hpp as _ <-]. set (s2 := if ge .& native_gone T =? 0 then _ else _) in Hpp.
  destruct (_ && _); [by injection Hpp as _ <-|]. destruct (tw_dir w).
  - destruct (p_dir T (k, ge) s2 A ord i w _ ge) as [s3 evd] eqn:Hd. injection Hpp as _ <-. unfold p_dir in Hd.
    destruct (nonzero (ge .& native_gone T)) eqn:Hg.
    + cbn zeta in Hd. destruct (nonzero (ge .& t_rename T)) eqn:Hr.
      * destruct (moved_head A w (decode (t_nat2not T) ge (tw_e w)) ord s2 (PE (TE (tw_p w) (decode (t_nat2not T) ge (tw_e w) .&^ Write (t_plat T) .&^ t_write T) true) (Some (k, ge))) []) as (l'&Hl&Hx).
        destruct (foldl _ _ ord) as [s4 ev4]. cbn [snd] in Hl. injection Hd as _ <-. rewrite Hl. cbn [app]. split; [done|]. intros y Hy.
        rewrite decide_False by (intros H0; by rewrite H0 in Hr). by apply Hx.
      * injection Hd as _ <-. split; [done|]. by intros y ?%elem_of_nil.
    + assert (ge .& t_rename T = 0) as H0.
      { apply has_ext. intros j. split; [|intros Hj; by apply has_0 in Hj]. intros [Ha Hb]%has_land. exfalso. unfold nonzero in Hg.
        apply negb_false_iff, N.eqb_eq in Hg. assert (has 0 j) as H; [|by apply has_0 in H]. rewrite <-Hg. apply has_land. split; [done|]. unfold native_gone. apply has_lor. by left. }
      destruct (nonzero (ge .& t_write T)); [|by injection Hd as _ <-]. destruct (a_ls A (tw_p w)) as [ls|]; [|by injection Hd as _ <-].
      assert (∀ x, x ∈ evd → pe_pe x = Some (k, ge)) as Hall.
      { intros x Hx. pose proof (rescan_shape (k, ge) A w ls s2 [] x) as H. rewrite Hd in H. cbn [snd] in H. destruct (H Hx) as [?%elem_of_nil|?]; done. }
      destruct evd as [|x l]; [done|]. split; [apply Hall; left|]. intros y Hy. rewrite decide_True by done. apply Hall. by right.
  - injection Hpp as _ <-. split; [done|]. by intros y ?%elem_of_nil.
Qed.
End trg.
(** kqueue: Sys is never what the documentation says: it is a syscall.Kevent_t, or nil. *)
Theorem C76_kqueue_refuted s st A ord fd ge x : x ∈ (p_process kq s st A ord (inl fd, ge)).2 →
  ¬ doc_kqueue (sys_trigger x) ∧ (sys_trigger x = SKevent_t fd ge ∨ sys_trigger x = SNil).
Proof.
  intros Hx. assert (pe_pe x = Some (inl fd, ge) ∨ pe_pe x = None) as H.
  { unfold p_process in Hx. cbn zeta in Hx. destruct (t_Watched kq _ _) as [i|]; [|by apply elem_of_nil in Hx].
    destruct (ts_heap _ !! i) as [w|]; [|by apply elem_of_nil in Hx]. set (s2 := if ge .& native_gone kq =? 0 then _ else _) in Hx.
    destruct (_ && _); [by apply elem_of_nil in Hx|]. destruct (tw_dir w).
    - destruct (p_dir kq _ s2 A ord i w _ ge) as [s3 evd] eqn:Hd. cbn [snd] in Hx. unfold p_dir in Hd. destruct (nonzero (ge .& native_gone kq)).
      + cbn zeta in Hd. destruct (nonzero (ge .& t_rename kq)).
        * destruct (foldl _ _ ord) as [s4 ev4] eqn:Hf. injection Hd as _ <-.
          match type of Hf with foldl _ (_, ?evn) _ = _ => pose proof (moved_shape kq A w (decode (t_nat2not kq) ge (tw_e w)) ord s2 evn x) as H end.
          rewrite Hf in H. cbn [snd] in H. destruct (H Hx) as [->%elem_of_list_singleton|[? _]]; [by left|by right].
        * injection Hd as _ <-. apply elem_of_list_singleton in Hx as ->. by left.
      + destruct (nonzero (ge .& t_write kq)); [|injection Hd as _ <-; by apply elem_of_nil in Hx].
        destruct (a_ls A (tw_p w)) as [ls|]; [|injection Hd as _ <-; by apply elem_of_nil in Hx].
        pose proof (rescan_shape kq (inl fd, ge) A w ls s2 [] x) as H. rewrite Hd in H. cbn [snd] in H. destruct (H Hx) as [?%elem_of_nil|?]; [done|by left].
    - cbn [snd p_file] in Hx. apply elem_of_list_singleton in Hx as ->. by left. }
  unfold sys_trigger. destruct H as [-> | ->]; (split; [by intros (?&?&?)|auto]).
Qed.

(** ** String *)
Lemma colon_free x : x ∈ Prop_String.systems → ∀ c n, (c, n) ∈ Prop_String.known x → colon ∉ n.
Proof.
  intros Hx c n Hc. assert (Forall (λ x, forallb (λ y, bool_decide (colon ∉ y.2)) (Prop_String.known x) = true) Prop_String.systems) as H by (repeat constructor; by vm_compute).
  rewrite Forall_forall in H. specialize (H x Hx). rewrite forallb_forall in H. specialize (H _ (proj1 (elem_of_list_In _ _) Hc)). by apply bool_decide_eq_true in H.
Qed.
Lemma colon_text x e s : x ∈ Prop_String.systems → Prop_String.text x e s → colon ∉ s.
Proof.
  intros Hx Ht. destruct (Prop_String.C66_parts x Hx e s Ht) as (_&Hp&->).
  assert (∀ n, n ∈ Prop_String.parts s → colon ∉ n) as H by (intros n (c&Hc&_)%Hp; by eapply colon_free).
  revert H. clear. induction (Prop_String.parts s) as [|n l IH]; [by intros _ ?%elem_of_nil|]. intros H. destruct l as [|n' l]; [apply H; left|].
  change (EventString.join_with [EventString.bar] (n :: n' :: l)) with (n ++ [EventString.bar] ++ EventString.join_with [EventString.bar] (n' :: l)).
  rewrite !elem_of_app, elem_of_list_singleton. intros [Hn|[Hn|Hn]]; [by apply (H n); [left|]|done|]. apply IH; [|done]. intros m Hm. apply H. by right.
Qed.
Lemma split_at (a : ascii) x y u v : a ∉ x → a ∉ y → x ++ a :: u = y ++ a :: v → x = y ∧ u = v.
Proof.
  revert y. induction x as [|c x IH]; intros [|d y] Hx Hy; cbn; intros H.
  - by injection H as ->.
  - injection H as Hcd Hr. subst d. destruct Hy. left.
  - injection H as Hcd Hr. subst c. destruct Hx. left.
  - injection H as Hcd Hr. subst d. destruct (IH y) as [-> ->]; try done; intros ?; [apply Hx|apply Hy]; by right.
Qed.
(** The text of an event tells its path and, if it consists of named constants, its event,
    whatever the path and the order of the names. *)
Theorem C76_text x e e' s s' p p' : x ∈ Prop_String.systems → Prop_String.text x e s → Prop_String.text x e' s' →
  info_String s p = info_String s' p' → p = p' ∧ s = s' ∧ (Prop_String.named x e → Prop_String.named x e' → e = e').
Proof.
  intros Hx Hs Hs' Heq. unfold info_String in Heq. cbn [app] in Heq. apply split_at in Heq as [-> Heq]; [|by eapply colon_text|by eapply colon_text].
  injection Heq as Heq. apply app_inj_2 in Heq as [-> _]; [|done]. split_and!; [done|done|]. intros H H'. by eapply (Prop_String.C66_faithful x Hx e e' s').
Qed.

(** ** Instances *)
(** Linux: /a and /b are watched; one file is renamed from /a to /b, its two records come in
    different batches, and another is moved out of /a. *)
Definition env_at (i : positive) : SpecInotify.ienv := SpecInotify.IEnv true (Some i) id.
Definition mv_hist : SpecInotify.itrace := [
  (env_at 5, SpecInotify.IWatch (b "/a") (F .| D), true); (env_at 6, SpecInotify.IWatch (b "/b") (F .| D .| Rename linux), true)].
Definition mv_tab : gmap Z Inotify.watched := Inotify.i_m (Prop_Inotify.runi Inotify.inew mv_hist).
Definition mv_bs : batches := [
  (mv_tab, [Inotify.Raw 1 F 7 (b "x"); Inotify.Raw 1 (F .| Inotify.IN_ISDIR) 8 (b "gone")]); (mv_tab, [Inotify.Raw 2 D 7 (b "y")])].
Lemma mv_tables : real_tables mv_bs.
Proof.
  intros m rs Hin. exists mv_hist, (Prop_Inotify.runi Inotify.inew mv_hist). split.
  - apply Prop_Inotify.iexec_run; [repeat constructor; by intros l|]. intros k x Hk. do 2 (destruct k as [|k]; [injection Hk as <-; by vm_compute|]). done.
  - unfold mv_bs in Hin. rewrite elem_of_cons, elem_of_list_singleton in Hin. by destruct Hin as [[= -> _]|[= -> _]].
Qed.
Lemma mv_kernel : kernel_moves (records mv_bs).
Proof.
  unfold records. cbn [fmap list_fmap concat snd mv_bs app]. split.
  - intros r Hr _. rewrite !elem_of_cons, elem_of_nil in Hr. destruct Hr as [->|[->|[->|[]]]]; [exists 6|exists 6|exists 7]; by vm_compute.
  - intros r Hr. rewrite !elem_of_cons, elem_of_nil in Hr. destruct Hr as [->|[->|[->|[]]]]; apply land_zero_disj; by vm_compute.
  - intros r Hr _. rewrite !elem_of_cons, elem_of_nil in Hr. destruct Hr as [->|[->|[->|[]]]]; done.
  - intros x k Hx _. rewrite !filter_cons, filter_nil. unfold of_move. cbn [Inotify.r_mask Inotify.r_cookie].
    destruct Hx as [-> | ->]; repeat case_decide; cbn [length]; try lia; exfalso; repeat match goal with H : _ ∧ _ |- _ => destruct H end; subst; done.
Qed.
Example C76_linux_hyps : kernel_moves (records mv_bs) ∧ real_tables mv_bs ∧ pair_all (moves_seen mv_bs) = [(7, (b "/a/x", b "/b/y"))] ∧
  (sys_inotify <$> Inotify.sent mv_tab [Inotify.Raw 2 (F .| Inotify.IN_ISDIR) 9 (b "d")]) =
    [SInotify 2 0x40000040 9 0; SInotify 2 0x40000040 9 0].
Proof. split; [apply mv_kernel|]. split; [apply mv_tables|]. split; by vm_compute. Qed.
(** macOS: two events are made of one report. *)
Example C76_macos_hyps :
  let w := Fsev.FWatch ∅ (b "/d") (Create fsevents .| Write fsevents) true false in
  (λ x, (x.2, sys_fsevents x)) <$> (Fsev.fs_hist w [Fsev.HBatch [Fsev.FSEvent (b "/d") 0 Fsev.FSEventsHistoryDone;
    Fsev.FSEvent (b "/d/f") 42 (Fsev.FSEventsCreated .| Fsev.FSEventsModified .| 0x10000)]]).2 =
  [(Create fsevents, SFSEvent (b "/d/f") 42 0x11100); (Write fsevents, SFSEvent (b "/d/f") 42 0x11100)].
Proof. by vm_compute. Qed.
(** kqueue and FEN: /d with /d/x is watched for Rename and renamed. *)
Definition mvdir (T : trig) : list cmd := [XWatch (Some true) (kind (Prop_Trigger.only Prop_Trigger.pd [Prop_Trigger.fx])) Prop_Trigger.pd (Rename (t_plat T))].
Example C76_trigger_hyps T : known_trig T → ∃ w,
  texec T (run T (mvdir T)).1 (run T (mvdir T)).2 ∧ tw_at (run T (mvdir T)).2 Prop_Trigger.pd = Some w ∧
  let s := (run T (mvdir T)).2 in let A := kind (λ _, None) in
  tstep T s (TEvent None A (keys_of s) (ident_of T w) (t_rename T) [TE Prop_Trigger.pd (Rename (t_plat T)) true; TE Prop_Trigger.px (Rename (t_plat T)) true])
    (p_process T s None A (keys_of s) (ident_of T w, t_rename T)).1 ∧
  (sys_trigger <$> (p_process T s None A (keys_of s) (ident_of T w, t_rename T)).2) =
    [if t_fds T then SKevent_t 1 (t_rename T) else SPortEvent Prop_Trigger.pd (t_rename T); SNil].
Proof.
  intros HT. exists (TW Prop_Trigger.pd true (Rename (t_plat T)) 0 (if t_fds T then 1%nat else 0%nat)).
  split; [apply run_texec; Prop_Trigger.fresh_fds|].
  split; [destruct HT as [-> | ->]; by vm_compute|]. cbn zeta. split; [|destruct HT as [-> | ->]; by vm_compute].
  constructor; [done|]. etrans; [symmetry; apply (er_process T _ None (kind (λ _, None)) _ (_, t_rename T))|].
  apply injective_projections; [done|]. destruct HT as [-> | ->]; by vm_compute.
Qed.
(** Windows: a directory and a file appear, and a file is written. *)
Example C76_windows_hyps :
  sys_readdcw <$> Readdcw.loopevent (b "C:\d") (Create readdcw .| dirmarker) [Readdcw.FN Readdcw.FILE_ACTION_ADDED (b "x")] ++
    Readdcw.loopevent (b "C:\d") (Create readdcw .| Write readdcw) [Readdcw.FN Readdcw.FILE_ACTION_ADDED (b "y"); Readdcw.FN Readdcw.FILE_ACTION_MODIFIED (b "y")] =
  [SUint8 2; SUint8 1; SUint8 0].
Proof. by vm_compute. Qed.

Example C76_text_hyps : info_String (b "notify.Create") (b "/d/x y") = b "notify.Create: ""/d/x y""".
Proof. by vm_compute. Qed.
Print Assumptions C76_linux.
Print Assumptions C76_renames.
Print Assumptions C76_macos.
Print Assumptions C76_windows_refuted.
Print Assumptions C76_trigger.
Print Assumptions C76_kqueue_refuted.
Print Assumptions C76_text.
Print Assumptions C76_linux_hyps.
Print Assumptions C76_macos_hyps.
Print Assumptions C76_trigger_hyps.
Print Assumptions C76_windows_hyps.
