(** * Property theorems C66: the text of an event *)
From Verif Require Import Base Event EventString.
Local Open Scope N_scope.

(** The systems: their generic constants and their own. *)
Definition systems : list (platform * names) := [
  (linux, linux_names); (kqueue, kqueue_names); (fen, fen_names); (fsevents, fsevents_names); (readdcw, readdcw_names); (stub, stub_names)].
(** All named constants of a system. *)
Definition known (x : platform * names) : names := estr x.1 ++ x.2.
(** [s] is the text of [e], for some order of the maps. *)
Definition text (x : platform * names) (e : N) (s : str) : Prop :=
  ∃ o1 o2, o1 ≡ₚ estr x.1 ∧ o2 ≡ₚ x.2 ∧ s = event_String o1 o2 e.
(** The event consists of named constants. *)
Definition named (x : platform * names) (e : N) : Prop :=
  ∀ i, has e i → ∃ c s, (c, s) ∈ known x ∧ has c i ∧ incl_ev c e.

Record table_ok (t : names) : Prop := {
  to_nz : ∀ c s, (c, s) ∈ t → c ≠ 0;
  to_disj : ∀ c s c' s', (c, s) ∈ t → (c', s') ∈ t → s ≠ s' → disj_ev c c';
  to_names : NoDup (snd <$> t);
  to_plain : ∀ c s, (c, s) ∈ t → s ≠ [] ∧ bar ∉ s;
}.
Definition table_okb (t : names) : bool :=
  forallb (λ x, negb (x.1 =? 0) && bool_decide (x.2 ≠ []) && bool_decide (bar ∉ x.2) &&
    forallb (λ y, bool_decide (x.2 = y.2) || (x.1 .& y.1 =? 0)) t) t && bool_decide (NoDup (snd <$> t)).
Lemma table_okb_ok t : table_okb t = true → table_ok t.
Proof.
  unfold table_okb. rewrite andb_true_iff, forallb_forall, bool_decide_eq_true. intros [H Hn].
  assert (∀ c s, (c, s) ∈ t → c ≠ 0 ∧ s ≠ [] ∧ bar ∉ s ∧ ∀ c' s', (c', s') ∈ t → s ≠ s' → c .& c' = 0) as Ha.
  { intros c s Hc. specialize (H _ (proj1 (elem_of_list_In _ _) Hc)). cbn [fst snd] in H.
    rewrite !andb_true_iff, negb_true_iff, N.eqb_neq, !bool_decide_eq_true, forallb_forall in H. destruct H as [[[? ?] ?] H].
    split_and!; try done. intros c' s' Hc' Hne. specialize (H _ (proj1 (elem_of_list_In _ _) Hc')). cbn [fst snd] in H.
    apply orb_true_iff in H as [H|H]; [by apply bool_decide_eq_true in H|by apply N.eqb_eq]. }
  split; [|intros c s c' s' H1 H2 H3; apply land_zero_disj; by eapply Ha|done|]; intros c s Hc; by destruct (Ha c s Hc) as (?&?&?&?).
Qed.
Lemma systems_ok x : x ∈ systems → table_ok (known x).
Proof.
  intros Hx. apply table_okb_ok. assert (Forall (λ x, table_okb (known x) = true) systems) as H by (repeat constructor; by vm_compute).
  rewrite Forall_forall in H. by apply H.
Qed.

(** ** Taking texts apart *)
Fixpoint pieces (s : str) : list str :=
  match s with
  | [] => [[]]
  | c :: s => if Ascii.eqb c bar then [] :: pieces s
              else match pieces s with x :: l => (c :: x) :: l | [] => [[c]] end
  end.
Lemma pieces_ne s : pieces s ≠ [].
Proof. destruct s as [|c s]; [done|]. cbn. destruct (Ascii.eqb c bar); [done|]. by destruct (pieces s). Qed.
Lemma pieces_plain x : bar ∉ x → pieces x = [x].
Proof.
  induction x as [|c x IH]; [done|]. intros H. cbn. destruct (Ascii.eqb_spec c bar) as [->|_]; [destruct H; left|].
  rewrite IH; [done|]. intros Hx. apply H. by right.
Qed.
Lemma pieces_bar x s : bar ∉ x → pieces (x ++ bar :: s) = x :: pieces s.
Proof.
  induction x as [|c x IH]; [done|]. intros H. cbn [app pieces]. destruct (Ascii.eqb_spec c bar) as [->|_]; [destruct H; left|].
  rewrite IH; [done|]. intros Hx. apply H. by right.
Qed.
Lemma pieces_join l : l ≠ [] → (∀ x, x ∈ l → bar ∉ x) → pieces (join_with [bar] l) = l.
Proof.
  induction l as [|x l IH]; [done|]. intros _ H. destruct l as [|y l].
  - apply pieces_plain, H. left.
  - change (join_with [bar] (x :: y :: l)) with (x ++ bar :: join_with [bar] (y :: l)).
    rewrite pieces_bar by (apply H; left). rewrite IH; [done|done|]. intros z Hz. apply H. by right.
Qed.
Lemma join_nil l : (∀ x, x ∈ l → x ≠ []) → join_with [bar] l = [] → l = [].
Proof.
  destruct l as [|x l]; [done|]. intros H Hj. exfalso. apply (H x); [left|]. destruct l as [|y l]; [done|].
  change (join_with [bar] (x :: y :: l)) with (x ++ bar :: join_with [bar] (y :: l)) in Hj. by apply app_nil in Hj as [_ ?].
Qed.
(** The names in a text. *)
Definition parts (s : str) : list str := if decide (s = []) then [] else pieces s.
Lemma parts_join l : (∀ x, x ∈ l → x ≠ [] ∧ bar ∉ x) → parts (join_with [bar] l) = l.
Proof.
  intros H. unfold parts. case_decide as Hj.
  - symmetry. apply join_nil; [|done]. intros x Hx. by apply H.
  - apply pieces_join; [by intros ->|]. intros x Hx. by apply H.
Qed.
Lemma land_incl e c : e .& c = c ↔ incl_ev c e.
Proof. split; [intros <-; clear; bits|intros H; clear - H; bits]. Qed.

Lemma NoDup_fmap_filter {A B} (f : A → B) (Q : A → Prop) `{∀ a, Decision (Q a)} (l : list A) : NoDup (f <$> l) → NoDup (f <$> filter Q l).
Proof.
  induction l as [|a l IH]; [done|]. rewrite fmap_cons, NoDup_cons, filter_cons. intros [Ha Hl]. case_decide; [|by apply IH].
  rewrite fmap_cons. constructor; [|by apply IH]. intros (a'&Heq&[_ Hin]%elem_of_list_filter)%elem_of_list_fmap.
  apply Ha. rewrite Heq. by apply elem_of_list_fmap_1.
Qed.
Section props.
Context (x : platform * names) (Hx : x ∈ systems).
Lemma text_parts e s : text x e s → ∃ l, s = join_with [bar] l ∧ parts s = l ∧ l ≡ₚ (snd <$> filter (λ y, e .& y.1 = y.1) (known x)).
Proof.
  intros (o1&o2&H1&H2&->). pose proof (systems_ok x Hx) as Hok.
  assert (o1 ++ o2 ≡ₚ known x) as Hp by (unfold known; by rewrite H1, H2).
  exists (snd <$> filter (λ y, e .& y.1 = y.1) (o1 ++ o2)). split_and!; [done| |by rewrite Hp].
  apply parts_join. intros s (y&->&Hy)%elem_of_list_fmap. apply elem_of_list_filter in Hy as [_ Hy]. rewrite Hp in Hy. destruct y as [c s].
  by apply (to_plain _ Hok c).
Qed.
(** The text is the names of the constants contained in the event, separated by bars,
    each once; the order is that of the visit. *)
Theorem C66_parts e s : text x e s →
  NoDup (parts s) ∧ (∀ n, n ∈ parts s ↔ ∃ c, (c, n) ∈ known x ∧ incl_ev c e) ∧ s = join_with [bar] (parts s).
Proof.
  intros Ht. destruct (text_parts e s Ht) as (l&->&->&Hl). pose proof (systems_ok x Hx) as Hok. split_and!; [| |done].
  - rewrite Hl. apply NoDup_fmap_filter, (to_names _ Hok).
  - intros n. rewrite Hl. rewrite elem_of_list_fmap. split.
    + intros ([c s]&->&[Hc Hin]%elem_of_list_filter). exists c. split; [done|]. by apply land_incl.
    + intros (c&Hc&Hi). exists (c, n). split; [done|]. apply elem_of_list_filter. split; [by apply land_incl|done].
Qed.
(** Every constant is printed as its own name, whatever the order. *)
Theorem C66_constant c n s : (c, n) ∈ known x → text x c s → s = n.
Proof.
  intros Hc Ht. destruct (text_parts c s Ht) as (l&->&_&Hl). pose proof (systems_ok x Hx) as Hok.
  assert (∀ m, m ∈ l ↔ m = n) as Hm.
  { intros m. rewrite Hl, elem_of_list_fmap. split.
    - intros ([c' s']&->&[Hi Hin]%elem_of_list_filter). cbn [fst snd] in *. destruct (decide (s' = n)) as [|Hne]; [done|].
      exfalso. apply (to_nz _ Hok c' s' Hin), has_ext. intros i. split; [intros Hi'|intros Hi'; by apply has_0 in Hi'].
      exfalso. apply (to_disj _ Hok c n c' s' Hc Hin (not_eq_sym Hne) i); [|done]. apply land_incl in Hi. by apply Hi.
    - intros ->. exists (c, n). split; [done|]. apply elem_of_list_filter. split; [|done]. apply land_incl. by intros i. }
  assert (NoDup l) as Hnd by (rewrite Hl; apply NoDup_fmap_filter, (to_names _ Hok)).
  assert (l ≡ₚ [n]) as Hp; [|by apply Permutation_singleton_r in Hp as ->].
  apply NoDup_Permutation; [done|apply NoDup_singleton|]. intros m. by rewrite Hm, elem_of_list_singleton.
Qed.
(** The text tells the event: events that consist of named constants and have a text
    in common are equal. *)
Theorem C66_faithful e e' s : named x e → named x e' → text x e s → text x e' s → e = e'.
Proof.
  intros Hn Hn' Ht Ht'. destruct (C66_parts e s Ht) as (_&Hp&_). destruct (C66_parts e' s Ht') as (_&Hp'&_).
  assert (∀ e1 e2, named x e1 → (∀ n, (∃ c, (c, n) ∈ known x ∧ incl_ev c e1) → ∃ c, (c, n) ∈ known x ∧ incl_ev c e2) → incl_ev e1 e2) as H.
  { intros e1 e2 H1 H i Hi. destruct (H1 i Hi) as (c&n&Hc&Hci&Hce). destruct (H n) as (c'&Hc'&Hce'); [by exists c|].
    assert (c' = c) as ->; [|by apply Hce']. pose proof (to_names _ (systems_ok x Hx)) as Hnd.
    clear - Hc Hc' Hnd. induction (known x) as [|[c0 n0] l IH]; [by apply elem_of_nil in Hc|]. rewrite fmap_cons in Hnd. apply NoDup_cons in Hnd as [Hn Hnd].
    apply elem_of_cons in Hc as [[= <- <-]|Hc]; apply elem_of_cons in Hc' as [Heq|Hc'].
    - by injection Heq.
    - destruct Hn. by apply (elem_of_list_fmap_1 snd _ (c', n)).
    - injection Heq as -> ->. destruct Hn. by apply (elem_of_list_fmap_1 snd _ (c, n0)).
    - by apply IH. }
  apply has_ext. intros i. split; apply H; try done; intros n Hc; [apply Hp', Hp|apply Hp, Hp']; done.
Qed.
(** The empty text is that of events that contain no named constant. *)
Theorem C66_empty e s : text x e s → s = [] ↔ ∀ c n, (c, n) ∈ known x → ¬ incl_ev c e.
Proof.
  intros Ht. destruct (C66_parts e s Ht) as (_&Hp&Hj). split.
  - intros -> c n Hc Hi. assert (n ∈ parts []) as H by (apply Hp; by exists c). by apply elem_of_nil in H.
  - intros H. rewrite Hj. destruct (parts s) as [|n l]; [done|]. destruct (proj1 (Hp n)) as (c&Hc&Hi); [left|]. by destruct (H c n).
Qed.
End props.

Example C66_hyps :
  text (linux, linux_names) (Create linux .| Write linux .| Inotify.InOpen) (b "notify.Write|notify.Create|notify.InOpen") ∧
  text (readdcw, readdcw_names) FileActionRenamedNewName (b "notify.FileActionRenamedNewName") ∧
  text (fsevents, fsevents_names) Fsev.FSEventsModified (b "notify.Write") ∧
  text (linux, linux_names) 0x1000 [] ∧ named (linux, linux_names) (Create linux .| Inotify.InOpen).
Proof.
  split_and!.
  - exists (reverse (estr linux)), linux_names. split_and!; [apply reverse_Permutation|done|by vm_compute].
  - exists (estr readdcw), readdcw_names. by split_and!.
  - exists (estr fsevents), fsevents_names. by split_and!.
  - exists (estr linux), linux_names. by split_and!.
  - intros i [Hi|Hi]%has_lor; [exists (Create linux), (b "notify.Create")|exists Inotify.InOpen, (b "notify.InOpen")];
      (split_and!; [apply (bool_decide_unpack _); by vm_compute|done|]); intros j Hj; apply has_lor; first [by left|by right].
Qed.

Print Assumptions C66_parts.
Print Assumptions C66_constant.
Print Assumptions C66_faithful.
Print Assumptions C66_empty.
Print Assumptions C66_hyps.
