(** * NodeFacts: proofs about Node.v *)
From Verif Require Import Base Event Watchpoint WatchpointFacts Paths PathsFacts Loop LoopFacts Node.

(** ** Handles *)
Lemma strip_Some p q r : strip p q = Some r ↔ q = p ++ r.
Proof.
  revert q. induction p as [|x p IH]; intros q; simpl; [naive_solver|].
  destruct q as [|y q]; [split; [done|intros H; done]|].
  destruct (decide (x = y)) as [->|Hne].
  - rewrite IH. split; [by intros ->|]. intros H. by injection H.
  - split; [done|]. intros H. by injection H as -> _.
Qed.
Lemma strip_None p q : strip p q = None ↔ ¬ p `prefix_of` q.
Proof.
  destruct (strip p q) as [r|] eqn:E.
  - apply strip_Some in E as ->. split; [done|]. intros H. destruct H. by apply prefix_app_r.
  - split; [|done]. intros _ [r Hr]. apply strip_Some in Hr. congruence.
Qed.
Lemma child_key_Some p q k : child_key p q = Some k ↔ q = p ++ [k].
Proof.
  unfold child_key. destruct (strip p q) as [r|] eqn:E.
  - apply strip_Some in E as ->. destruct r as [|x [|]]; split; intros H; try done.
    + rewrite app_nil_r in H. apply (f_equal length) in H. rewrite app_length in H. simpl in H. lia.
    + by injection H as ->.
    + by apply app_inv_head in H as [= ->].
    + apply app_inv_head in H. done.
  - split; [done|]. intros ->. apply strip_None in E. destruct E. by apply prefix_app_r.
Qed.
Lemma elem_of_children t p k : k ∈ children t p ↔ is_Some (t !! (p ++ [k])).
Proof.
  unfold children. rewrite elem_of_list_omap. split.
  - intros ([q nd]&Hin&Hk). simpl in Hk. apply child_key_Some in Hk as ->.
    apply elem_of_map_to_list in Hin. by rewrite Hin.
  - intros [nd Hnd]. exists (p ++ [k], nd). split; [by apply elem_of_map_to_list|].
    by apply child_key_Some.
Qed.
Lemma NoDup_children t p : NoDup (children t p).
Proof.
  unfold children.
  assert (NoDup (map_to_list t).*1) as Hnd by apply NoDup_fst_map_to_list.
  induction (map_to_list t) as [|[q nd] l IH]; simpl; [constructor|].
  simpl in Hnd. apply NoDup_cons in Hnd as [Hn Hnd].
  destruct (child_key p q) as [k|] eqn:E; [|by apply IH].
  apply NoDup_cons. split; [|by apply IH].
  rewrite elem_of_list_omap. intros ([q' nd']&Hin&Hk). simpl in Hk.
  apply child_key_Some in E as ->. apply child_key_Some in Hk as ->.
  apply Hn. apply elem_of_list_fmap. by exists (p ++ [k], nd').
Qed.
Lemma lookup_delete_sub t q p :
  delete_sub t q !! p = if decide (q `prefix_of` p) then None else t !! p.
Proof.
  unfold delete_sub. destruct (decide (q `prefix_of` p)) as [H|H].
  - apply map_filter_lookup_None. right. intros nd _. simpl. rewrite strip_None. naive_solver.
  - destruct (t !! p) as [nd|] eqn:E.
    + apply map_filter_lookup_Some. split; [done|]. simpl. by apply strip_None.
    + apply map_filter_lookup_None. by left.
Qed.

Lemma snoc_inj {A} (p q : list A) x y : p ++ [x] = q ++ [y] → p = q ∧ x = y.
Proof. apply app_inj_tail. Qed.
Lemma prefix_snoc_cases {A} (p q : list A) k : p `prefix_of` q ++ [k] → p `prefix_of` q ∨ p = q ++ [k].
Proof.
  intros [r Hr]. destruct r as [|x r _] using rev_ind.
  - right. by rewrite app_nil_r in Hr.
  - left. rewrite app_assoc in Hr. apply snoc_inj in Hr as [-> _]. by exists r.
Qed.
Lemma prefix_strict {A} (p q : list A) : p `prefix_of` q → p ≠ q → ∃ k r, q = p ++ k :: r.
Proof. intros [[|k r] ->] Hne; [by rewrite app_nil_r in Hne|]. eauto. Qed.
Lemma prefix_antisym {A} (p q : list A) : p `prefix_of` q → q `prefix_of` p → p = q.
Proof.
  intros [r ->] [r' H]. rewrite <-app_assoc in H.
  rewrite <-(app_nil_r p) in H at 1. apply app_inv_head in H.
  symmetry in H. apply app_eq_nil in H as [-> _]. by rewrite app_nil_r.
Qed.

(** ** Well-formedness *)
(** Every node's parent exists. *)
Definition closed (t : tree) : Prop := ∀ p k, is_Some (t !! (p ++ [k])) → is_Some (t !! p).
Lemma closed_prefix t p q : closed t → p `prefix_of` q → is_Some (t !! q) → is_Some (t !! p).
Proof.
  intros Hc [r ->]. induction r as [|k r IH] using rev_ind; [by rewrite app_nil_r|].
  rewrite app_assoc. intros H. apply IH. by eapply Hc.
Qed.

(** ** set_wp *)
Lemma lookup_set_wp t h wp q :
  set_wp t h wp !! q = if decide (q = h)
                       then (λ nd, Node (nname nd) (Some wp)) <$> t !! h
                       else t !! q.
Proof.
  unfold set_wp. destruct (t !! h) as [nd|] eqn:E; simpl.
  - destruct (decide (q = h)) as [->|]; [by rewrite lookup_insert|by rewrite lookup_insert_ne].
  - destruct (decide (q = h)) as [->|]; done.
Qed.
Lemma set_wp_is_Some t h wp q : is_Some (set_wp t h wp !! q) ↔ is_Some (t !! q).
Proof.
  rewrite lookup_set_wp. destruct (decide (q = h)) as [->|]; [|done].
  by rewrite fmap_is_Some.
Qed.
Lemma name_at_set_wp t h wp q : name_at (set_wp t h wp) q = name_at t q.
Proof.
  unfold name_at. rewrite lookup_set_wp. destruct (decide (q = h)) as [->|]; [|done].
  by destruct (t !! h).
Qed.
Lemma wp_at_set_wp t h wp q :
  wp_at (set_wp t h wp) q = if decide (q = h ∧ is_Some (t !! h)) then wp else wp_at t q.
Proof.
  unfold wp_at. rewrite lookup_set_wp. destruct (decide (q = h)) as [->|].
  - destruct (t !! h) as [nd|] eqn:E; simpl.
    + rewrite decide_True by eauto. done.
    + rewrite decide_False; [done|]. intros [_ [? ?]]. done.
  - rewrite decide_False by naive_solver. done.
Qed.

(** ** addchild *)
Lemma lookup_addchild t h name k q :
  (addchild t h name k).1 !! q =
    match t !! q with
    | Some nd => Some nd
    | None => if decide (q = h ++ [k]) then Some (newnode name) else None
    end.
Proof.
  unfold addchild. destruct (t !! (h ++ [k])) as [nd|] eqn:E; simpl.
  - destruct (t !! q) as [?|] eqn:Eq; [done|]. destruct (decide (q = h ++ [k])) as [->|]; congruence.
  - destruct (decide (q = h ++ [k])) as [->|Hne].
    + by rewrite lookup_insert, E.
    + rewrite lookup_insert_ne by done. by destruct (t !! q).
Qed.
Lemma addchild_snd t h name k : (addchild t h name k).2 = h ++ [k].
Proof. unfold addchild. by destruct (t !! (h ++ [k])). Qed.

Section comp.
Context (sepc : ascii).
Notation render := (render sepc).

(** ** Component-level versions of the byte loops.
    [joinc] is the text of a relative path: c1/c2/... *)
Definition joinc (cs : list str) : str := drop 1 (render cs).
Lemma joinc_cons c cs : joinc (c :: cs) = c ++ render cs.
Proof. done. Qed.

Lemma indexSep_joinc c cs : comp_ok sepc c →
  indexSep sepc (joinc (c :: cs)) = match cs with [] => None | _ => Some (length c) end.
Proof.
  intros Hc. rewrite joinc_cons. destruct cs as [|d cs]; simpl.
  - rewrite app_nil_r. by apply indexSep_None.
  - by apply indexSep_app.
Qed.

Fixpoint addc (t : tree) (h : path) (nm : str) (cs : list str) : tree :=
  match cs with
  | [] => t
  | c :: cs => addc (addchild t h (nm ++ sepc :: c) c).1 (h ++ [c]) (nm ++ sepc :: c) cs
  end.

(** Position bookkeeping shared by all byte loops: at offset [S (length nm)] of
    [nm ++ render (c :: cs)] the remaining text is [joinc (c :: cs)]. *)
Lemma drop_at nm c cs : drop (S (length nm)) (nm ++ render (c :: cs)) = joinc (c :: cs).
Proof.
  replace (S (length nm)) with (length nm + 1) by lia.
  by rewrite <-drop_drop, drop_app.
Qed.
Lemma take_at nm c cs :
  take (S (length nm) + length c) (nm ++ render (c :: cs)) = nm ++ sepc :: c.
Proof.
  rewrite render_cons.
  replace (nm ++ sepc :: c ++ render cs) with ((nm ++ sepc :: c) ++ render cs)
    by (by rewrite <-app_assoc).
  replace (S (length nm) + length c) with (length (nm ++ sepc :: c))
    by (rewrite app_length; simpl; lia).
  apply take_app.
Qed.
Lemma take_comp c cs : take (length c) (joinc (c :: cs)) = c.
Proof. rewrite joinc_cons. apply take_app. Qed.
Lemma next_at nm c : S (length nm) + length c + 1 = S (length (nm ++ sepc :: c)).
Proof. rewrite app_length. simpl. lia. Qed.
Lemma name_shift nm c cs : nm ++ render (c :: cs) = (nm ++ sepc :: c) ++ render cs.
Proof. rewrite render_cons. by rewrite <-app_assoc. Qed.
Lemma name_single nm c : nm ++ render [c] = nm ++ sepc :: c.
Proof. by rewrite render_cons, render_nil, app_nil_r. Qed.

Lemma add_loop_spec fuel t h nm c cs :
  comps_ok sepc (c :: cs) → length cs ≤ fuel →
  add_loop sepc fuel t h (nm ++ render (c :: cs)) (S (length nm))
    = (addc t h nm (c :: cs), h ++ c :: cs).
Proof.
  revert t h nm c cs. induction fuel as [|fuel IH]; intros t h nm c cs Hok Hf;
    apply Forall_cons in Hok as [Hc Hcs]; cbn [add_loop];
    rewrite drop_at, indexSep_joinc by done.
  - destruct cs as [|d cs]; [|simpl in Hf; lia].
    rewrite joinc_cons, render_nil, app_nil_r. rewrite name_single.
    rewrite (surjective_pairing (addchild _ _ _ _)), addchild_snd. done.
  - destruct cs as [|d cs].
    + rewrite joinc_cons, render_nil, app_nil_r. rewrite name_single.
      rewrite (surjective_pairing (addchild _ _ _ _)), addchild_snd. done.
    + change (S (length nm + length c)) with (S (length nm) + length c). rewrite take_at, take_comp.
      rewrite (surjective_pairing (addchild _ _ _ _)), addchild_snd.
      change (S (length nm + length c + 1)) with (S (length nm) + length c + 1).
      rewrite next_at, name_shift.
      rewrite IH; [|done|simpl in Hf; lia]. by rewrite <-app_assoc.
Qed.

Lemma length_render_ge cs : length cs ≤ length (render cs).
Proof. induction cs; simpl; [done|]. rewrite app_length. lia. Qed.

Lemma nd_add_spec t h cs :
  cs ≠ [] → comps_ok sepc cs →
  nd_add sepc t h (name_at t h ++ render cs)
    = (addc t h (name_at t h) cs, Some (h ++ cs)).
Proof.
  intros Hne Hok. destruct cs as [|c cs]; [done|]. unfold nd_add.
  assert (indexrel sepc (name_at t h) (name_at t h ++ render (c :: cs)) = Some (S (length (name_at t h)))) as ->.
  { apply indexrel_Some. exists (joinc (c :: cs)). done. }
  rewrite add_loop_spec; [done|done|].
  rewrite app_length. pose proof (length_render_ge (c :: cs)). simpl in *. lia.
Qed.

Lemma lookup_addc t h nm cs q :
  addc t h nm cs !! q =
    match t !! q with
    | Some nd => Some nd
    | None =>
        match strip h q with
        | Some (x :: r) => if decide (x :: r `prefix_of` cs) then Some (newnode (nm ++ render (x :: r))) else None
        | _ => None
        end
    end.
Proof.
  revert t h nm. induction cs as [|c cs IH]; intros t h nm; cbn [addc].
  - destruct (t !! q); [done|]. by destruct (strip h q) as [[|x r]|].
  - rewrite IH, lookup_addchild. destruct (t !! q) as [nd|] eqn:Eq; [done|].
    destruct (decide (q = h ++ [c])) as [->|Hne].
    + assert (strip h (h ++ [c]) = Some [c]) as -> by (by apply strip_Some).
      rewrite decide_True by (by exists cs). by rewrite name_single.
    + destruct (strip (h ++ [c]) q) as [r'|] eqn:E1.
      * apply strip_Some in E1 as ->. rewrite <-app_assoc.
        assert (strip h (h ++ [c] ++ r') = Some (c :: r')) as -> by (by apply strip_Some).
        destruct r' as [|x r']; [by rewrite app_nil_r in Hne|].
        destruct (decide (x :: r' `prefix_of` cs)) as [Hp|Hp].
        -- rewrite decide_True by (by apply prefix_cons). by rewrite (name_shift nm c).
        -- rewrite decide_False; [done|]. intros H. by apply prefix_cons_inv_2 in H.
      * destruct (strip h q) as [[|x r]|] eqn:E2; try done.
        rewrite decide_False; [done|]. intros H.
        apply prefix_cons_inv_1 in H as ->. apply strip_Some in E2 as ->.
        apply strip_None in E1. destruct E1. exists r. by rewrite <-app_assoc.
Qed.

(** ** Get *)
Lemma get_loop_spec fuel t h nm c cs :
  comps_ok sepc (c :: cs) → length cs ≤ fuel → closed t →
  get_loop sepc fuel t h (nm ++ render (c :: cs)) (S (length nm))
    = if decide (is_Some (t !! (h ++ c :: cs))) then Some (h ++ c :: cs) else None.
Proof.
  intros Hok Hf Hcl. revert t h nm c cs Hok Hf Hcl.
  induction fuel as [|fuel IH]; intros t h nm c cs Hok Hf Hcl;
    apply Forall_cons in Hok as [Hc Hcs]; cbn [get_loop];
    rewrite drop_at, indexSep_joinc by done.
  - destruct cs as [|d cs]; [|simpl in Hf; lia].
    rewrite joinc_cons, render_nil, app_nil_r.
    destruct (t !! (h ++ [c])) eqn:E; case_decide as H; try done; [by destruct H|by destruct H].
  - destruct cs as [|d cs].
    + rewrite joinc_cons, render_nil, app_nil_r.
      destruct (t !! (h ++ [c])) eqn:E; case_decide as H; try done; [by destruct H|by destruct H].
    + rewrite take_comp. destruct (t !! (h ++ [c])) as [nd|] eqn:E.
      * change (S (length nm + length c + 1)) with (S (length nm) + length c + 1).
        rewrite next_at, name_shift. rewrite IH; [|done|simpl in Hf; lia|done].
        by rewrite <-app_assoc.
      * rewrite decide_False; [done|]. intros H.
        assert (is_Some (t !! (h ++ [c]))) as [? ?].
        { eapply closed_prefix; [done| |exact H]. exists (d :: cs). by rewrite <-app_assoc. }
        congruence.
Qed.
Lemma nd_get_spec t h cs :
  cs ≠ [] → comps_ok sepc cs → closed t →
  nd_get sepc t h (name_at t h ++ render cs) =
    if decide (is_Some (t !! (h ++ cs))) then Some (h ++ cs) else None.
Proof.
  intros Hne Hok Hcl. destruct cs as [|c cs]; [done|]. unfold nd_get.
  assert (indexrel sepc (name_at t h) (name_at t h ++ render (c :: cs)) = Some (S (length (name_at t h)))) as ->.
  { apply indexrel_Some. exists (joinc (c :: cs)). done. }
  apply get_loop_spec; [done| |done].
  rewrite app_length. pose proof (length_render_ge (c :: cs)). simpl in *. lia.
Qed.

(** ** WalkPath *)
Fixpoint walkc {A} (fn : A → path → bool → A * cb) (t : tree) (a : A) (h : path) (c : str) (cs : list str)
    : A * wpres :=
  match fn a h false with
  | (a, CSkip) => (a, WPOk)
  | (a, CErr) => (a, WPErr)
  | (a, CNil) =>
      match t !! (h ++ [c]) with
      | None => (a, WPNotExist)
      | Some _ =>
          match cs with
          | [] => match fn a (h ++ [c]) true with
                  | (a, CErr) => (a, WPErr)
                  | (a, _) => (a, WPOk)
                  end
          | d :: cs => walkc fn t a (h ++ [c]) d cs
          end
      end
  end.
Lemma walkpath_loop_spec {A} (fn : A → path → bool → A * cb) fuel t a h nm c cs :
  comps_ok sepc (c :: cs) → length cs ≤ fuel →
  walkpath_loop sepc fn fuel t a h (nm ++ render (c :: cs)) (S (length nm)) = walkc fn t a h c cs.
Proof.
  revert a h nm c cs. induction fuel as [|fuel IH]; intros a h nm c cs Hok Hf;
    apply Forall_cons in Hok as [Hc Hcs]; cbn [walkpath_loop]; rewrite drop_at, indexSep_joinc by done.
  - destruct cs as [|d cs]; [|simpl in Hf; lia]. simpl.
    by rewrite joinc_cons, render_nil, app_nil_r.
  - destruct cs as [|d cs]; cbn [walkc].
    + by rewrite joinc_cons, render_nil, app_nil_r.
    + rewrite take_comp. destruct (fn a h false) as [a' []]; try done.
      destruct (t !! (h ++ [c])); [|done].
      change (S (length nm + length c + 1)) with (S (length nm) + length c + 1).
      rewrite next_at, name_shift. apply IH; [done|simpl in Hf; lia].
Qed.
Lemma nd_walkpath_spec {A} (fn : A → path → bool → A * cb) t a h c cs :
  comps_ok sepc (c :: cs) →
  nd_walkpath sepc fn t a h (name_at t h ++ render (c :: cs)) = walkc fn t a h c cs.
Proof.
  intros Hok. unfold nd_walkpath.
  assert (indexrel sepc (name_at t h) (name_at t h ++ render (c :: cs)) = Some (S (length (name_at t h)))) as ->.
  { apply indexrel_Some. exists (joinc (c :: cs)). done. }
  apply walkpath_loop_spec; [done|].
  rewrite app_length. pose proof (length_render_ge (c :: cs)). simpl in *. lia.
Qed.

(** ** Consequences of Add *)
Lemma is_Some_addc t h nm cs q :
  is_Some (addc t h nm cs !! q) ↔
    is_Some (t !! q) ∨ ∃ r, r ≠ [] ∧ q = h ++ r ∧ r `prefix_of` cs.
Proof.
  rewrite lookup_addc. destruct (t !! q) as [nd|] eqn:E; [naive_solver|].
  destruct (strip h q) as [[|x r]|] eqn:E2.
  - apply strip_Some in E2 as ->. split; [intros [? ?]; done|].
    intros [[? ?]|(r&Hr&Hq&_)]; [done|]. apply app_inv_head in Hq. done.
  - apply strip_Some in E2 as ->. case_decide as H.
    + split; [|eauto]. intros _. right. by exists (x :: r).
    + split; [intros [? ?]; done|]. intros [[? ?]|(r'&Hr'&Hq&Hp)]; [done|].
      apply app_inv_head in Hq as <-. done.
  - split; [intros [? ?]; done|]. intros [[? ?]|(r'&Hr'&Hq&Hp)]; [done|].
    apply strip_None in E2. destruct E2. rewrite Hq. by apply prefix_app_r.
Qed.
Lemma closed_addc t h nm cs : closed t → is_Some (t !! h) → closed (addc t h nm cs).
Proof.
  intros Hc Hh p k. rewrite !is_Some_addc. intros [H|(r&Hr&Hq&Hp)].
  - left. by eapply Hc.
  - destruct r as [|x r _] using rev_ind; [done|].
    rewrite app_assoc in Hq. apply snoc_inj in Hq as [-> ->].
    destruct r as [|y r]; [left; by rewrite app_nil_r|].
    right. exists (y :: r). split_and!; [done|done|]. by eapply prefix_app_l.
Qed.

(** ** Del *)
Fixpoint stk (h : path) (cs : list str) : list path :=
  match cs with
  | [] => []
  | c :: cs => stk (h ++ [c]) cs ++ [h ++ [c]]
  end.
(** [stk h cs ++ [h]] is the stack after descending from [h] through [cs]. *)
Lemma stk_snoc h cs k : stk h (cs ++ [k]) = (h ++ cs ++ [k]) :: stk h cs.
Proof.
  revert h. induction cs as [|c cs IH]; intros h; simpl; [done|].
  rewrite IH. simpl. by rewrite <-app_assoc.
Qed.

Lemma del_loop_spec fuel t stack h nm cs k :
  comps_ok sepc (cs ++ [k]) → length cs ≤ fuel → closed t →
  del_loop sepc fuel t stack h (nm ++ render (cs ++ [k])) (S (length nm))
    = if decide (is_Some (t !! (h ++ cs ++ [k])))
      then (prune sepc (delete_sub t (h ++ cs ++ [k])) (stk h cs ++ stack) k, true)
      else (t, false).
Proof.
  intros Hok Hf Hcl. revert fuel stack h nm Hf. induction cs as [|c cs IH]; intros fuel stack h nm Hf.
  - apply Forall_cons in Hok as [Hc _]. cbn [app].
    destruct fuel; cbn [del_loop]; rewrite drop_at, indexSep_joinc by done;
      rewrite joinc_cons, render_nil, app_nil_r;
      destruct (t !! (h ++ [k])) eqn:E; case_decide as H; try done; by destruct H.
  - apply Forall_cons in Hok as [Hc Hcs]. destruct fuel as [|fuel]; [simpl in Hf; lia|].
    rewrite <-app_comm_cons. cbn [del_loop]. rewrite drop_at, indexSep_joinc by done.
    destruct (cs ++ [k]) as [|d ds] eqn:Eds; [by destruct cs|]. rewrite <-Eds in *. rewrite take_comp.
    destruct (t !! (h ++ [c])) as [nd|] eqn:E.
    + rewrite next_at, name_shift. rewrite IH; [|done|simpl in Hf; lia].
      simpl stk. rewrite <-!app_assoc. done.
    + rewrite decide_False; [done|]. intros H.
      assert (is_Some (t !! (h ++ [c]))) as [? ?]; [|congruence].
      eapply closed_prefix; [done| |exact H]. exists (cs ++ [k]). by rewrite <-app_assoc.
Qed.

(** Nothing of interest at or below [q] except on the way to [p]. *)
Definition dead (t : tree) (p q : path) : Prop :=
  ∀ x, is_Some (t !! x) → q `prefix_of` x → x `prefix_of` p ∧ size (wp_at t x) ≤ 1.
Definition removed (t : tree) (h cs q : path) : Prop :=
  ∃ r, r ≠ [] ∧ r `prefix_of` cs ∧ h ++ r `prefix_of` q ∧ dead t (h ++ cs) (h ++ r).

Lemma length_children t p : length (children t p) = 0 ↔ ∀ k, t !! (p ++ [k]) = None.
Proof.
  split.
  - intros H k. apply nil_length_inv in H. apply eq_None_not_Some. intros H1.
    apply elem_of_children in H1. rewrite H in H1. by apply elem_of_nil in H1.
  - intros H. destruct (children t p) as [|k l] eqn:E; [done|].
    assert (k ∈ children t p) as H1 by (rewrite E; left).
    apply elem_of_children in H1. rewrite H in H1. by destruct H1.
Qed.
Lemma busy_false t q : closed t →
  busy t q = false ↔ dead t q q.
Proof.
  intros Hcl. unfold busy, dead. destruct (t !! q) as [nd|] eqn:E.
  - rewrite orb_false_iff, Nat.ltb_ge, negb_false_iff, Nat.eqb_eq, length_children. split.
    + intros [Hs Hch] x Hx Hp. destruct (decide (q = x)) as [<-|Hne].
      * split; [done|]. unfold wp_at. by rewrite E.
      * destruct (prefix_strict _ _ Hp Hne) as (k&r&->).
        assert (is_Some (t !! (q ++ [k]))) as H1.
        { eapply closed_prefix; [done| |exact Hx]. exists r. by rewrite <-app_assoc. }
        rewrite Hch in H1. by destruct H1.
    + intros H. split.
      * specialize (H q). rewrite E in H. destruct H as [_ H]; [done|done|].
        unfold wp_at in H. by rewrite E in H.
      * intros k. apply eq_None_not_Some. intros Hk. destruct (H _ Hk) as [Hp _]; [by apply prefix_app_r|].
        apply prefix_length in Hp. rewrite app_length in Hp. simpl in Hp. lia.
  - split; [|done]. intros _ x Hx Hp. eapply closed_prefix in Hx; [|done|exact Hp].
    rewrite E in Hx. by destruct Hx.
Qed.

Lemma closed_delete_sub t q : closed t → closed (delete_sub t q).
Proof.
  intros Hc p k. rewrite !lookup_delete_sub. case_decide as H; [by intros [? ?]|].
  intros H1. rewrite decide_False; [by eapply Hc|]. intros H2. apply H. by apply prefix_app_r.
Qed.
Lemma wp_at_delete_sub t q p : ¬ q `prefix_of` p → wp_at (delete_sub t q) p = wp_at t p.
Proof. intros H. unfold wp_at. by rewrite lookup_delete_sub, decide_False. Qed.
Lemma name_at_delete_sub t q p : ¬ q `prefix_of` p → name_at (delete_sub t q) p = name_at t p.
Proof. intros H. unfold name_at. by rewrite lookup_delete_sub, decide_False. Qed.
Lemma prefix_ge {A} (p q : list A) k : ¬ p ++ q ++ [k] `prefix_of` p ++ q.
Proof. intros H. apply prefix_length in H. rewrite !app_length in H. simpl in H. lia. Qed.

(** One step of pruning. *)
Lemma removed_step t h cs k q :
  closed t → dead t (h ++ cs ++ [k]) (h ++ cs ++ [k]) →
  removed t h (cs ++ [k]) q ↔
    h ++ cs ++ [k] `prefix_of` q ∨ removed (delete_sub t (h ++ cs ++ [k])) h cs q.
Proof.
  intros Hcl Hd. split.
  - intros (r&Hr&Hp&Hq&Hdead).
    destruct (decide (h ++ cs ++ [k] `prefix_of` q)) as [|Hnq]; [by left|right].
    apply prefix_snoc_cases in Hp as [Hp| ->]; [|done].
    exists r. split_and!; try done. intros x Hx Hrx.
    rewrite lookup_delete_sub in Hx. case_decide as Hnx; [by destruct Hx|].
    destruct (Hdead x Hx Hrx) as [H1 H2]. rewrite wp_at_delete_sub by done. split; [|done].
    rewrite app_assoc in H1. apply prefix_snoc_cases in H1 as [H1|H1]; [done|].
    destruct Hnx. rewrite H1. by rewrite app_assoc.
  - intros [Hq|(r&Hr&Hp&Hq&Hdead)].
    + exists (cs ++ [k]). split_and!; try done. by destruct cs.
    + exists r. split_and!; try done; [by apply prefix_app_r|]. intros x Hx Hrx.
      destruct (decide (h ++ cs ++ [k] `prefix_of` x)) as [Hnx|Hnx]; [by apply Hd|].
      destruct (Hdead x) as [H1 H2]; [by rewrite lookup_delete_sub, decide_False|done|].
      rewrite wp_at_delete_sub in H2 by done. split; [|done].
      rewrite app_assoc. by apply prefix_app_r.
Qed.
Lemma removed_nil t h q : ¬ removed t h [] q.
Proof. intros (r&Hr&Hp&_). by apply prefix_nil_inv in Hp. Qed.

(** Names along the chain, as far as pruning needs them. *)
Definition bases_ok (t : tree) (h cs : list str) : Prop :=
  ∀ r k, r ++ [k] `prefix_of` cs → is_Some (t !! (h ++ r ++ [k])) → base sepc (name_at t (h ++ r ++ [k])) = k.

Lemma prune_spec t h cs k :
  closed t → bases_ok t h cs → is_Some (t !! (h ++ cs)) →
  ∀ q, (removed t h (cs ++ [k]) q → prune sepc t (stk h cs ++ [h]) k !! q = None) ∧
       (¬ removed t h (cs ++ [k]) q → prune sepc t (stk h cs ++ [h]) k !! q = t !! q).
Proof.
  revert t k. induction cs as [|c cs IH] using rev_ind; intros t k Hcl Hb Hex q.
  - simpl. destruct (busy t (h ++ [k])) eqn:Eb.
    + split; [|done]. intros (r&Hr&Hp&Hq&Hd).
      assert (r = [k]) as ->.
      { destruct r as [|x r]; [done|]. apply prefix_cons_inv_1 in Hp as Hx. subst x.
        apply prefix_cons_inv_2 in Hp. by apply prefix_nil_inv in Hp as ->. }
      apply busy_false in Hd; [|done]. congruence.
    + apply busy_false in Eb; [|done]. rewrite lookup_delete_sub.
      pose proof (removed_step t h [] k q Hcl Eb) as Hs. simpl in Hs. rewrite Hs.
      case_decide; split; try done; try naive_solver.
      intros [?|H1]; [done|]. by apply removed_nil in H1.
  - rewrite stk_snoc. cbn [app prune].
    replace ((h ++ cs ++ [c]) ++ [k]) with (h ++ (cs ++ [c]) ++ [k]) by (by rewrite <-!app_assoc).
    destruct (busy t (h ++ (cs ++ [c]) ++ [k])) eqn:Eb.
    + split; [|done]. intros (r&Hr&Hp&Hq&Hd).
      assert (dead t (h ++ (cs ++ [c]) ++ [k]) (h ++ (cs ++ [c]) ++ [k])) as H1.
      { intros x Hx Hpx. apply Hd; [done|]. etrans; [|exact Hpx]. by apply prefix_app. }
      apply busy_false in H1; [|done]. congruence.
    + apply busy_false in Eb; [|done]. rewrite Hb by done.
      set (t' := delete_sub t (h ++ (cs ++ [c]) ++ [k])).
      rewrite removed_step by done. fold t'.
      destruct (IH t' c) with (q := q) as [IH1 IH2].
      * by apply closed_delete_sub.
      * intros r x Hp Hx. unfold t' in *. rewrite lookup_delete_sub in Hx.
        case_decide as Hnx; [by destruct Hx|]. rewrite name_at_delete_sub by done.
        apply Hb; [|done]. by apply prefix_app_r.
      * unfold t'. rewrite lookup_delete_sub, decide_False.
        -- eapply closed_prefix; [done| |exact Hex]. exists [c]. by rewrite <-app_assoc.
        -- intros H. apply prefix_length in H. rewrite !app_length in H. simpl in H. lia.
      * assert (t' !! q = if decide (h ++ (cs ++ [c]) ++ [k] `prefix_of` q) then None else t !! q) as Ht'
          by apply lookup_delete_sub.
        split.
        -- intros [H|H]; [|by apply IH1].
           destruct (prune sepc t' (stk h cs ++ [h]) c !! q) as [nd|] eqn:E; [|done].
           assert (¬ removed t' h (cs ++ [c]) q) as Hn by (intros Hr; by specialize (IH1 Hr)).
           rewrite IH2 by done. by rewrite Ht', decide_True.
        -- intros H. rewrite IH2 by naive_solver. rewrite Ht'. rewrite decide_False by naive_solver. done.
Qed.

Lemma nd_del_spec t h cs k :
  comps_ok sepc (cs ++ [k]) → closed t → bases_ok t h cs →
  nd_del sepc t h (name_at t h ++ render (cs ++ [k])) =
    if decide (is_Some (t !! (h ++ cs ++ [k])))
    then (prune sepc (delete_sub t (h ++ cs ++ [k])) (stk h cs ++ [h]) k, true)
    else (t, false).
Proof.
  intros Hok Hcl Hb. unfold nd_del.
  assert (indexrel sepc (name_at t h) (name_at t h ++ render (cs ++ [k])) = Some (S (length (name_at t h)))) as ->.
  { apply indexrel_Some. destruct (cs ++ [k]) as [|c ds] eqn:E; [by destruct cs|].
    exists (joinc (c :: ds)). done. }
  rewrite del_loop_spec; [done|done| |done].
  rewrite app_length. pose proof (length_render_ge (cs ++ [k])) as H. rewrite app_length in H. simpl in H. lia.
Qed.
(** What disappears: the subtree of [p] and the ancestors below [h] that hold
    nothing else. *)
Definition del_gone (t : tree) (h p q : path) : Prop :=
  p `prefix_of` q ∨
  (h `prefix_of` q ∧ q ≠ h ∧ q `prefix_of` p ∧
   ∀ x, is_Some (t !! x) → q `prefix_of` x → p `prefix_of` x ∨ (x `prefix_of` p ∧ size (wp_at t x) ≤ 1)).
Lemma nd_del_lookup t h cs k q :
  comps_ok sepc (cs ++ [k]) → closed t → bases_ok t h cs →
  is_Some (t !! (h ++ cs ++ [k])) → is_Some (t !! q) →
  (del_gone t h (h ++ cs ++ [k]) q → (nd_del sepc t h (name_at t h ++ render (cs ++ [k]))).1 !! q = None) ∧
  (¬ del_gone t h (h ++ cs ++ [k]) q →
     (nd_del sepc t h (name_at t h ++ render (cs ++ [k]))).1 !! q = t !! q).
Proof.
  intros Hok Hcl Hb Hex Hqe. rewrite nd_del_spec, decide_True by done. simpl fst.
  set (p := h ++ cs ++ [k]) in *. set (t' := delete_sub t p).
  assert (¬ p `prefix_of` h ++ cs) as Hpn by (unfold p; rewrite app_assoc; intros [r Hr];
    apply (f_equal length) in Hr; rewrite !app_length in Hr; simpl in Hr; lia).
  destruct (prune_spec t' h cs k) with (q := q) as [H1 H2].
  - by apply closed_delete_sub.
  - intros r x Hp Hx. unfold t' in *. rewrite lookup_delete_sub in Hx.
    case_decide as Hnx; [by destruct Hx|]. rewrite name_at_delete_sub by done. by apply Hb.
  - unfold t'. rewrite lookup_delete_sub, decide_False by done.
    eapply closed_prefix; [done| |exact Hex]. exists [k]. unfold p. by rewrite <-app_assoc.
  - fold p in H1, H2.
    assert (dead t' p p) as Hdp.
    { intros x Hx Hpx. unfold t' in Hx. rewrite lookup_delete_sub, decide_True in Hx by done. by destruct Hx. }
    assert (del_gone t h p q ↔ removed t' h (cs ++ [k]) q) as Hiff.
    { split.
      - intros [Hq|(Hh&Hne&Hqp&Hall)].
        + exists (cs ++ [k]). split_and!; try done. by destruct cs.
        + destruct (prefix_strict _ _ Hh (not_eq_sym Hne)) as (x&r&->).
          exists (x :: r). split_and!; try done.
          * unfold p in Hqp. by apply prefix_app_inv in Hqp.
          * intros y Hy Hqy. unfold t' in Hy |- *. rewrite lookup_delete_sub in Hy.
            case_decide as Hny; [by destruct Hy|]. rewrite wp_at_delete_sub by done.
            destruct (Hall y Hy Hqy); [done|]. done.
      - intros (r&Hr&Hrp&Hrq&Hd). destruct (decide (p `prefix_of` q)) as [|Hnq]; [by left|right].
        assert (is_Some (t' !! q)) as Hq' by (unfold t'; by rewrite lookup_delete_sub, decide_False).
        destruct (Hd q Hq' Hrq) as [Hqp _]. split_and!.
        + etrans; [|exact Hrq]. by apply prefix_app_r.
        + intros ->. apply prefix_length in Hrq. rewrite app_length in Hrq.
          destruct r; [done|simpl in Hrq; lia].
        + done.
        + intros x Hx Hqx. destruct (decide (p `prefix_of` x)) as [|Hnx]; [by left|right].
          destruct (Hd x) as [H3 H4].
          * unfold t'. by rewrite lookup_delete_sub, decide_False.
          * by etrans.
          * unfold t' in H4. rewrite wp_at_delete_sub in H4 by done. done. }
    rewrite Hiff. split; [done|]. intros Hn. rewrite H2 by done.
    unfold t'. rewrite lookup_delete_sub, decide_False; [done|].
    intros Hp. apply Hn. apply Hiff. by left.
Qed.
End comp.
