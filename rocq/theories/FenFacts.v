(** * FenFacts: lemmas for Prop_Fen *)
From Verif Require Import Base Event Paths Clean Trigger FenGen FenMem SpecFen.
Local Open Scope N_scope.

(** ** What holds of each native call holds of all functions *)
Section pres.
Context {S : Type} (nw : S → answers → str → N → S * res) (nu : S → answers → str → S * res).
Context (Q : answers → Prop) (R : S → S → Prop) (HR : ∀ s, R s s) (HT : ∀ a b c, R a b → R b c → R a c).
Context (Hw : ∀ s A p e, Q A → R s (nw s A p e).1) (Hu : ∀ s A p, Q A → R s (nu s A p).1).
Implicit Types g : gst S.
Local Notation RR g g' := (R (g_nat g) (g_nat g')).
Local Ltac tr := first [apply HR | eassumption | eapply HT; [eassumption|]; tr].

Lemma p_Watch g A i e : Q A → RR g (g_Watch nw g A i e).1.
Proof.
  intros HA. unfold g_Watch. destruct (g_heap g !! i) as [w|]; [|apply HR].
  pose proof (Hw (g_nat g) A (tw_p w) e HA) as H. by destruct (nw _ _ _ _).
Qed.
Lemma p_Unwatch g A i : Q A → RR g (g_Unwatch nu g A i).1.
Proof.
  intros HA. unfold g_Unwatch. destruct (g_heap g !! i) as [w|]; [|apply HR].
  pose proof (Hu (g_nat g) A (tw_p w) HA) as H. by destruct (nu _ _ _).
Qed.
Lemma n_Record g i : g_nat (g_Record g i) = g_nat g.
Proof. unfold g_Record. by destruct (g_heap g !! i). Qed.
Lemma n_Del g i : g_nat (g_Del g i) = g_nat g.
Proof. unfold g_Del. by destruct (g_heap g !! i). Qed.
Lemma n_upd g i f : g_nat (g_upd g i f) = g_nat g.
Proof. unfold g_upd. by destruct (g_heap g !! i). Qed.
Lemma p_single_do g A i e m d : Q A → RR g (g_single_do nw g A i e m d).1.
Proof.
  intros HA. unfold g_single_do. rewrite <-(n_upd g i (add_role m e)) at 1. by apply p_Watch.
Qed.
Lemma p_singlewatch g A p e m d : Q A → RR g (g_singlewatch nw g A p e m d).1.
Proof.
  intros HA. unfold g_singlewatch. destruct (g_path g !! p) as [i|].
  - pose proof (p_single_do g A i e m d HA) as H. by destruct (g_single_do _ _ _ _ _ _ _).
  - destruct (g_NewWatched g p d) as [g1 i] eqn:E. injection E as E1 E2.
    assert (E : g_nat g1 = g_nat g) by by subst g1.
    pose proof (p_single_do g1 A i e m d HA) as H. rewrite E in H.
    destruct (g_single_do _ _ _ _ _ _ _) as [g2 r]. cbn [fst] in *.
    destruct r; cbn [fst]; by rewrite ?n_Record.
Qed.
Lemma p_singleunwatch g A p m : Q A → RR g (g_singleunwatch nw nu g A p m).1.
Proof.
  intros HA. unfold g_singleunwatch. destruct (g_path g !! p) as [i|]; [|apply HR].
  pose proof (p_Unwatch (g_upd g i (clear_role m)) A i HA) as H. rewrite n_upd in H.
  destruct (g_Unwatch _ _ _ _) as [g1 r]. cbn [fst] in H. destruct r; try done.
  destruct (g_heap g1 !! i) as [w|]; [|done].
  destruct (nonzero (tw_e w)); [|by cbn [fst]; rewrite n_Del].
  pose proof (p_singlewatch g1 A p (tw_e w) (if nonzero (tw_eNonDir w) then MNDir else MDir) (tw_dir w) HA) as H2.
  destruct (g_singlewatch _ _ _ _ _ _ _) as [g2 r2]. cbn [fst] in *. by eapply HT.
Qed.
Lemma p_walk_fold f ls : (∀ g fi, RR g (f g fi).1) → ∀ g, RR g (g_walk_fold f g ls).1.
Proof.
  intros Hf. induction ls as [|fi ls IH]; intros g; cbn [g_walk_fold]; [apply HR|].
  pose proof (Hf g fi) as H. destruct (f g fi) as [g1 r]. cbn [fst] in H.
  destruct r; try done. eapply HT; [done|apply IH].
Qed.
Lemma p_walk g A p f : (∀ g fi, RR g (f g fi).1) → RR g (g_walk g A p f).1.
Proof. intros Hf. unfold g_walk. destruct (a_ls A p); [by apply p_walk_fold|apply HR]. Qed.
Lemma p_watch_entry g A p e fi : Q A → RR g (g_watch_entry nw A p e g fi).1.
Proof.
  intros HA. unfold g_watch_entry. pose proof (p_singlewatch g A (join p (fi_name fi)) e MNDir (fi_dir fi) HA) as H.
  by destruct (g_singlewatch _ _ _ _ _ _ _).
Qed.
Lemma p_watch g A p e d : Q A → RR g (g_watch nw g A p e d).1.
Proof.
  intros HA. unfold g_watch. pose proof (p_singlewatch g A p e MDir d HA) as H.
  destruct (g_singlewatch _ _ _ _ _ _ _) as [g1 r]. cbn [fst] in H.
  assert (H2 : RR g (g_walk g1 A p (g_watch_entry nw A p e)).1)
    by (eapply HT; [done|]; apply p_walk; intros; by apply p_watch_entry).
  destruct r; try done; by destruct d.
Qed.
Lemma p_unwatch_entry g A p fi : Q A → RR g (g_unwatch_entry nw nu A p g fi).1.
Proof.
  intros HA. unfold g_unwatch_entry. pose proof (p_singleunwatch g A (join p (fi_name fi)) MNDir HA) as H.
  by destruct (g_singleunwatch _ _ _ _ _ _).
Qed.
Lemma p_unwatch g A p d : Q A → RR g (g_unwatch nw nu g A p d).1.
Proof.
  intros HA. unfold g_unwatch.
  assert (H : RR g (if d then g_walk g A p (g_unwatch_entry nw nu A p) else (g, ROk)).1).
  { destruct d; [|apply HR]. apply p_walk. intros. by apply p_unwatch_entry. }
  destruct (if d then _ else _) as [g1 r]. cbn [fst] in H. destruct r; try done.
  eapply HT; [done|by apply p_singleunwatch].
Qed.
Lemma p_trg_Watch g st A p e : Q A → RR g (g_trg_Watch nw g st A p e).1.
Proof. intros HA. destruct st; cbn [g_trg_Watch]; [by apply p_watch|apply HR]. Qed.
Lemma p_trg_Unwatch g st A p : Q A → RR g (g_trg_Unwatch nw nu g st A p).1.
Proof. intros HA. destruct st; cbn [g_trg_Unwatch]; [by apply p_unwatch|apply HR]. Qed.
Lemma p_trg_Rewatch g st A A' p e : Q A → Q A' → RR g (g_trg_Rewatch nw nu g st A A' p e).1.
Proof.
  intros HA HA'. destruct st as [d|]; cbn [g_trg_Rewatch]; [|apply HR].
  pose proof (p_unwatch g A p d HA) as H. destruct (g_unwatch _ _ _ _ _ _) as [g1 r]. cbn [fst] in H.
  destruct r; try done. cbn [fst]. eapply HT; [done|by apply p_watch].
Qed.
Lemma p_foldl {B} (f : gst S * list tevent → B → gst S * list tevent) ls :
  (∀ acc x, RR acc.1 (f acc x).1) → ∀ acc, RR acc.1 (foldl f acc ls).1.
Proof.
  intros Hf. induction ls as [|x ls IH]; intros acc; cbn [foldl]; [apply HR|]. eapply HT; [apply Hf|apply IH].
Qed.
Lemma p_moved1 A w e acc k : Q A → RR acc.1 (g_moved1 nw nu A w e acc k).1.
Proof.
  intros HA. destruct acc as [g evn]. cbn [g_moved1]. destruct (has_prefix _ _); [|apply HR].
  cbn [fst]. by apply p_singleunwatch.
Qed.
Lemma p_rescan1 A w acc fi : Q A → RR acc.1 (g_rescan1 nw A w acc fi).1.
Proof.
  intros HA. destruct acc as [g evn]. cbn [g_rescan1].
  pose proof (p_singlewatch g A (join (tw_p w) (fi_name fi)) (tw_eDir w) MNDir (fi_dir fi) HA) as H.
  by destruct (g_singlewatch _ _ _ _ _ _ _).
Qed.
Lemma p_dir g A ord i w e ge : Q A → RR g (g_dir nw nu g A ord i w e ge).1.
Proof.
  intros HA. unfold g_dir. destruct (nonzero (ge .& (FileRenameFrom .| FileDelete))).
  - destruct (nonzero (ge .& FileRenameFrom)); [|cbn [fst]; rewrite n_Del; apply HR].
    pose proof (p_foldl (g_moved1 nw nu A w e) ord (λ acc x, p_moved1 A w e acc x HA) (g, [TE (tw_p w) (e .&^ Write fen .&^ FileModified) true])) as H.
    cbn [fst] in H. destruct (foldl _ _ ord) as [g1 evn]. cbn [fst] in *. by rewrite n_Del.
  - destruct (nonzero (ge .& FileModified)); [|apply HR].
    destruct (a_ls A (tw_p w)) as [ls|]; [|apply HR].
    apply (p_foldl (g_rescan1 nw A w) ls (λ acc x, p_rescan1 A w acc x HA) (g, [])).
Qed.
Lemma p_process g st A ord p ge : Q A → RR g (g_process nw nu g st A ord p ge).1.
Proof.
  intros HA. unfold g_process. destruct (g_path g !! p) as [i|]; [|apply HR].
  destruct (g_heap g !! i) as [w|]; [|apply HR]. cbv zeta.
  set (g1 := if ge .& (FileRenameFrom .| FileDelete) =? 0 then _ else g).
  assert (H : RR g g1).
  { unfold g1. destruct (_ =? 0); [|apply HR]. destruct st as [d|]; [|apply HR].
    pose proof (p_Watch g A i (fen_encode (tw_e w) d) HA) as H. destruct (g_Watch _ _ _ _ _) as [g2 r]. cbn [fst] in H.
    destruct r; by rewrite ?n_Del. }
  clearbody g1. destruct (_ && _); [done|].
  assert (H2 : RR g (if tw_dir w then g_dir nw nu g1 A ord i w (decode fen_nat2not ge (tw_e w)) ge else (g1, [TE (tw_p w) (decode fen_nat2not ge (tw_e w)) (tw_dir w)])).1).
  { destruct (tw_dir w); [|done]. eapply HT; [done|by apply p_dir]. }
  destruct (if tw_dir w then _ else _) as [g2 evn]. cbn [fst] in *.
  destruct (nonzero _); by rewrite ?n_Del.
Qed.
End pres.

(** ** Over one association per name the functions are those of Trigger.v *)
Lemma s_Watch g A i e : t_Watch fn (as_ts g) A i e = (as_ts (g_Watch r_watch g A i e).1, (g_Watch r_watch g A i e).2).
Proof.
  unfold t_Watch, g_Watch, r_watch. cbn [ts_heap as_ts]. destruct (g_heap g !! i) as [w|]; [|done].
  by destruct (a_watch A (tw_p w)).
Qed.
Lemma s_Unwatch g A i : t_Unwatch fn (as_ts g) A i = (as_ts (g_Unwatch r_unwatch g A i).1, (g_Unwatch r_unwatch g A i).2).
Proof.
  unfold t_Unwatch, g_Unwatch, r_unwatch. cbn [ts_heap ts_reg as_ts]. destruct (g_heap g !! i) as [w|]; [|done].
  destruct (a_unwatch A (tw_p w)); [|done..]. unfold ident_of. cbn [t_fds fn]. by destruct (g_nat g !! (inr (tw_p w) : ident)).
Qed.
Lemma s_Del g i : t_Del fn (as_ts g) i = as_ts (g_Del g i).
Proof. unfold t_Del, g_Del. cbn [ts_heap as_ts]. by destruct (g_heap g !! i). Qed.
Lemma s_Record g i : t_Record fn (as_ts g) i = as_ts (g_Record g i).
Proof. unfold t_Record, g_Record. cbn [ts_heap as_ts]. by destruct (g_heap g !! i). Qed.
Lemma s_upd g i f : upd_tw (as_ts g) i f = as_ts (g_upd g i f).
Proof. unfold upd_tw, g_upd. cbn [ts_heap as_ts]. by destruct (g_heap g !! i). Qed.
Lemma s_single_do g A i e m d :
  single_do fn (as_ts g) A i e m d = (as_ts (g_single_do r_watch g A i e m d).1, (g_single_do r_watch g A i e m d).2).
Proof. unfold single_do, g_single_do. cbv zeta. rewrite s_upd, s_Watch. done. Qed.
Lemma s_singlewatch g A p e m d :
  singlewatch fn (as_ts g) A p e m d = (as_ts (g_singlewatch r_watch g A p e m d).1, (g_singlewatch r_watch g A p e m d).2).
Proof.
  unfold singlewatch, g_singlewatch. cbn [ts_path as_ts]. destruct (g_path g !! p) as [i|].
  - rewrite s_single_do. by destruct (g_single_do _ _ _ _ _ _ _).
  - change (t_NewWatched fn (as_ts g) A p d) with (as_ts (g_NewWatched g p d).1, (NewOk, (g_NewWatched g p d).2)).
    destruct (g_NewWatched g p d) as [g1 i]. cbn [fst snd].
    rewrite s_single_do. destruct (g_single_do _ _ _ _ _ _ _) as [g2 r]. cbn [fst snd].
    destruct r; [|done..]. by rewrite s_Record.
Qed.
Lemma s_singleunwatch g A p m :
  singleunwatch fn (as_ts g) A p m = (as_ts (g_singleunwatch r_watch r_unwatch g A p m).1, (g_singleunwatch r_watch r_unwatch g A p m).2).
Proof.
  unfold singleunwatch, g_singleunwatch. cbn [ts_path as_ts]. destruct (g_path g !! p) as [i|]; [|done].
  rewrite s_upd, s_Unwatch. destruct (g_Unwatch _ _ _ _) as [g1 r]. cbn [fst snd]. destruct r; [|done..].
  cbn [ts_heap as_ts]. destruct (g_heap g1 !! i) as [w|]; [|done].
  destruct (nonzero (tw_e w)).
  - rewrite s_singlewatch. by destruct (g_singlewatch _ _ _ _ _ _ _).
  - by rewrite s_Del.
Qed.
Lemma s_walk g A p f h : (∀ g fi, f (as_ts g) fi = (as_ts (h g fi).1, (h g fi).2)) →
  walk (as_ts g) A p f = (as_ts (g_walk g A p h).1, (g_walk g A p h).2).
Proof.
  intros Hf. unfold walk, g_walk. destruct (a_ls A p) as [ls|]; [|done].
  revert g. induction ls as [|fi ls IH]; intros g; cbn [walk_fold g_walk_fold]; [done|].
  rewrite Hf. destruct (h g fi) as [g1 r]. cbn [fst snd]. destruct r; [apply IH|done..].
Qed.
Lemma s_watch g A p e d :
  trg_watch fn (as_ts g) A p e d = (as_ts (g_watch r_watch g A p e d).1, (g_watch r_watch g A p e d).2).
Proof.
  unfold trg_watch, g_watch. rewrite s_singlewatch. destruct (g_singlewatch _ _ _ _ _ _ _) as [g1 r]. cbn [fst snd].
  assert (H : walk (as_ts g1) A p (watch_entry fn A p e) =
    (as_ts (g_walk g1 A p (g_watch_entry r_watch A p e)).1, (g_walk g1 A p (g_watch_entry r_watch A p e)).2)).
  { apply s_walk. intros g2 fi. unfold watch_entry, g_watch_entry. rewrite s_singlewatch. by destruct (g_singlewatch _ _ _ _ _ _ _). }
  destruct r; try done; by destruct d.
Qed.
Lemma s_unwatch g A p d :
  trg_unwatch fn (as_ts g) A p d = (as_ts (g_unwatch r_watch r_unwatch g A p d).1, (g_unwatch r_watch r_unwatch g A p d).2).
Proof.
  unfold trg_unwatch, g_unwatch.
  assert (H : (if d then walk (as_ts g) A p (unwatch_entry fn A p) else (as_ts g, ROk)) =
    (as_ts (if d then g_walk g A p (g_unwatch_entry r_watch r_unwatch A p) else (g, ROk)).1,
      (if d then g_walk g A p (g_unwatch_entry r_watch r_unwatch A p) else (g, ROk)).2)).
  { destruct d; [|done]. apply s_walk. intros g2 fi. unfold unwatch_entry, g_unwatch_entry.
    rewrite s_singleunwatch. by destruct (g_singleunwatch _ _ _ _ _ _). }
  rewrite H. destruct (if d then g_walk _ _ _ _ else _) as [g1 r]. cbn [fst snd].
  destruct r; try done. apply s_singleunwatch.
Qed.
Lemma s_foldl {B} (f : tstate * list tevent → B → tstate * list tevent) (h : gst (gmap ident N) * list tevent → B → gst (gmap ident N) * list tevent) ls :
  (∀ g evn x, f (as_ts g, evn) x = (as_ts (h (g, evn) x).1, (h (g, evn) x).2)) →
  ∀ g evn, foldl f (as_ts g, evn) ls = (as_ts (foldl h (g, evn) ls).1, (foldl h (g, evn) ls).2).
Proof.
  intros Hf. induction ls as [|x ls IH]; intros g evn; cbn [foldl]; [done|].
  rewrite Hf. destruct (h (g, evn) x) as [g1 e1]. apply IH.
Qed.
Lemma s_dir g A ord i w e ge :
  trg_dir fn (as_ts g) A ord i w e ge = (as_ts (g_dir r_watch r_unwatch g A ord i w e ge).1, (g_dir r_watch r_unwatch g A ord i w e ge).2).
Proof.
  unfold trg_dir, g_dir, native_gone. cbn [t_rename t_remove t_write t_plat fn].
  destruct (nonzero (ge .& (FileRenameFrom .| FileDelete))).
  - destruct (nonzero (ge .& FileRenameFrom)); [|by rewrite s_Del].
    rewrite (s_foldl _ (g_moved1 r_watch r_unwatch A w e)).
    + destruct (foldl _ _ ord) as [g1 evn]. cbn [fst snd]. by rewrite s_Del.
    + intros g1 evn k. cbn [dir_moved1 g_moved1 t_rename t_write t_plat fn]. destruct (has_prefix _ _); [|done].
      by rewrite s_singleunwatch.
  - destruct (nonzero (ge .& FileModified)); [|done].
    destruct (a_ls A (tw_p w)) as [ls|]; [|done]. apply s_foldl.
    intros g1 evn fi. cbn [rescan1 g_rescan1]. rewrite s_singlewatch. by destruct (g_singlewatch _ _ _ _ _ _ _).
Qed.
Lemma s_process g st A ord p ge :
  trg_process fn (as_ts g) st A ord (inr p) ge =
    let g := g_set_nat g (delete (inr p : ident) (g_nat g)) in
    (as_ts (g_process r_watch r_unwatch g st A ord p ge).1, (g_process r_watch r_unwatch g st A ord p ge).2).
Proof.
  unfold trg_process. cbn [t_fds fn]. cbv zeta.
  change (set_reg (as_ts g) _) with (as_ts (g_set_nat g (delete (inr p : ident) (g_nat g)))).
  generalize (g_set_nat g (delete (inr p : ident) (g_nat g))). clear g. intros g.
  unfold g_process. cbn [t_Watched t_fds fn ts_path as_ts]. destruct (g_path g !! p) as [i|]; [|done].
  cbn [ts_heap as_ts]. destruct (g_heap g !! i) as [w|]; [|done].
  unfold native_gone. cbn [t_rename t_remove t_write t_encode t_nat2not fn]. cbv zeta.
  set (g1 := if ge .& (FileRenameFrom .| FileDelete) =? 0 then
      match st with
      | Some d => match g_Watch r_watch g A i (fen_encode (tw_e w) d) with (g, ROk) => g | (g, _) => g_Del g i end
      | None => g end else g).
  set (s1 := if ge .& (FileRenameFrom .| FileDelete) =? 0 then
      match st with
      | Some d => match t_Watch fn (as_ts g) A i (fen_encode (tw_e w) d) with (s, ROk) => s | (s, _) => t_Del fn s i end
      | None => as_ts g end else as_ts g).
  assert (H : s1 = as_ts g1).
  { unfold s1, g1. destruct (_ =? 0); [|done]. destruct st as [d|]; [|done].
    rewrite s_Watch. destruct (g_Watch _ _ _ _ _) as [g2 r]. cbn [fst snd]. destruct r; [done|by rewrite s_Del..]. }
  rewrite H. clear s1 H. clearbody g1. destruct (_ && _); [done|].
  assert (H : (if tw_dir w then trg_dir fn (as_ts g1) A ord i w (decode fen_nat2not ge (tw_e w)) ge else (as_ts g1, [TE (tw_p w) (decode fen_nat2not ge (tw_e w)) (tw_dir w)])) =
    (as_ts (if tw_dir w then g_dir r_watch r_unwatch g1 A ord i w (decode fen_nat2not ge (tw_e w)) ge else (g1, [TE (tw_p w) (decode fen_nat2not ge (tw_e w)) (tw_dir w)])).1,
      (if tw_dir w then g_dir r_watch r_unwatch g1 A ord i w (decode fen_nat2not ge (tw_e w)) ge else (g1, [TE (tw_p w) (decode fen_nat2not ge (tw_e w)) (tw_dir w)])).2)).
  { destruct (tw_dir w); [|done]. apply s_dir. }
  rewrite H. destruct (if tw_dir w then g_dir _ _ _ _ _ _ _ _ _ else _) as [g2 evn]. cbn [fst snd].
  destruct (nonzero _); [by rewrite s_Del|done].
Qed.
