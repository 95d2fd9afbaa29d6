(** * WinPathFacts: paths on Windows *)
From Verif Require Import Base Event Paths PathsFacts Loop Clean CleanFacts Node SpecTree SpecNonRec SpecOS SpecRec WinPath SpecWinPath.

(** ** Pieces *)
Lemma wsep_cases c : wsep c = true ↔ c = bslash ∨ c = slash.
Proof. unfold wsep. by rewrite orb_true_iff, !aeqb_eq. Qed.
Lemma wsplits_nonempty s : wsplits s ≠ [].
Proof. destruct s as [|c s]; cbn [wsplits]; [done|]. destruct (wsep c); [done|]. by destruct (wsplits s). Qed.
Definition nosep (s : str) : Prop := Forall (λ c, wsep c = false) s.
Lemma wsplits_app x c y : nosep x → wsep c = true → wsplits (x ++ c :: y) = x :: wsplits y.
Proof.
  intros Hx Hc. induction Hx as [|a x Ha Hx IH]; cbn [app wsplits]; [by rewrite Hc|]. by rewrite Ha, IH.
Qed.
Lemma wsplits_nosep x : nosep x → wsplits x = [x].
Proof. intros Hx. induction Hx as [|a x Ha Hx IH]; cbn [wsplits]; [done|]. by rewrite Ha, IH. Qed.
Lemma wsplits_pieces s : Forall nosep (wsplits s).
Proof.
  induction s as [|c s IH]; cbn [wsplits]; [by repeat constructor|]. destruct (wsep c) eqn:Hc.
  - constructor; [constructor|done].
  - destruct (wsplits s) as [|x l]; [by repeat constructor|]. apply Forall_cons_1 in IH as [H1 H2]. constructor; [by constructor|done].
Qed.
Definition wproper (c : str) : Prop := c ≠ [] ∧ c ≠ dot ∧ c ≠ dotdot ∧ nosep c.
Lemma wproper_fold l : ∀ st, Forall nosep l → Forall wproper st → Forall wproper (foldl (clean_step true) st l).
Proof.
  induction l as [|c l IH]; intros st Hl Hst; cbn [foldl]; [done|]. apply Forall_cons_1 in Hl as [Hc Hl]. apply IH; [done|].
  unfold clean_step. repeat case_decide; try done.
  - destruct st as [|x st]; [done|]. apply Forall_cons_1 in Hst as [(_&_&Hx&_) Hst]. by rewrite decide_False.
  - constructor; [|done]. split_and!; try done; naive_solver.
Qed.
Lemma wproper_comps l : Forall nosep l → Forall wproper (clean_comps true l).
Proof. intros Hl. unfold clean_comps. apply Forall_reverse. by apply wproper_fold. Qed.
Lemma wproper_step st c : wproper c → clean_step true st c = c :: st.
Proof. intros (H1&H2&H3&_). unfold clean_step. rewrite decide_False by naive_solver. by rewrite decide_False. Qed.
Lemma wproper_fold_id q : ∀ st, Forall wproper q → foldl (clean_step true) st q = reverse q ++ st.
Proof.
  induction q as [|c q IH]; intros st Hq; cbn [foldl]; [done|]. apply Forall_cons_1 in Hq as [Hc Hq].
  rewrite wproper_step, IH by done. by rewrite reverse_cons, <-app_assoc.
Qed.
Lemma wproper_id q : Forall wproper q → clean_comps true q = q.
Proof. intros Hq. unfold clean_comps. by rewrite wproper_fold_id, app_nil_r, reverse_involutive. Qed.
Lemma clean_comps_empty l : clean_comps true ([] :: l) = clean_comps true l.
Proof. done. Qed.
Lemma wjoins_render x l : bslash :: wjoins (x :: l) = render bslash (x :: l).
Proof. revert x. induction l as [|y l IH]; intros x; cbn [wjoins render]; [by rewrite app_nil_r|]. f_equal. f_equal. apply IH. Qed.
Lemma wsplits_render q : q ≠ [] → Forall nosep q → wsplits (render bslash q) = [] :: q.
Proof.
  intros Hq Hn. destruct q as [|x q]; [done|]. clear Hq. rewrite render_cons. cbn [wsplits]. change (wsep bslash) with true. cbn [wsplits].
  f_equal. revert x Hn. induction q as [|y q IH]; intros x Hn; apply Forall_cons_1 in Hn as [Hx Hn].
  - rewrite render_nil, app_nil_r. by apply wsplits_nosep.
  - rewrite render_cons, wsplits_app by done. f_equal. by apply IH.
Qed.

(** ** Volumes *)
Lemma letter_spec c : alphabetic c ↔ letter c = true.
Proof. unfold letter, alphabetic. rewrite orb_true_iff, !andb_true_iff, !Nat.leb_le. lia. Qed.
Lemma wvolume_head v : wvolume v → ∃ c c' v', v = c :: c' :: v' ∧ slash ∉ v ∧ fromslash v = v.
Proof.
  assert (∀ s, slash ∉ s → fromslash s = s) as Hf.
  { intros s Hs. unfold fromslash. induction s as [|a s IH]; cbn [fmap list_fmap]; [done|]. apply not_elem_of_cons in Hs as [Ha Hs].
    destruct (Ascii.eqb a slash) eqn:E; [apply aeqb_eq in E; by subst|]. f_equal. by apply IH. }
  assert (∀ s, Forall (λ c, wsep c = false) s → slash ∉ s) as Hn.
  { intros s Hs Hin. rewrite Forall_forall in Hs. by apply Hs in Hin. }
  intros [(c&Hc&->)|(h&x&[_ Hh]&[_ Hx]&->)]; eexists _, _, _; (split; [done|]).
  - apply letter_spec in Hc. assert (slash ∉ [c; colon]) as Hin; [|by split; [|apply Hf]]. rewrite !not_elem_of_cons. split_and!; try done. 2: apply not_elem_of_nil. by intros <-.
  - assert (slash ∉ bslash :: bslash :: h ++ bslash :: x) as Hin; [|by split; [|apply Hf]].
    rewrite !not_elem_of_cons, not_elem_of_app, not_elem_of_cons. split_and!; try done; by apply Hn.
Qed.
Lemma word_wordy s : word s → wordy s = true.
Proof.
  intros [(c&s'&->&Hc) _]. cbn [wordy]. apply negb_true_iff. destruct (Ascii.eqb c ".") eqn:E; [by apply aeqb_eq in E|done].
Qed.
Lemma volname_vol v c r : wvolume v → wsep c = true → volname (v ++ c :: r) = v.
Proof.
  intros [(a&Ha&->)|(h&x&Hh&Hx&->)] Hc; cbn [app volname].
  - apply letter_spec in Ha. rewrite Ha. by rewrite Ascii.eqb_refl.
  - change (letter bslash && Ascii.eqb bslash colon) with false. cbn [uncvol]. change (wsep bslash && wsep bslash) with true. cbv iota.
    rewrite <-(app_assoc h). cbn [app]. rewrite (wsplits_app h bslash) by (done || apply Hh). rewrite (wsplits_app x c) by (done || apply Hx).
    rewrite !word_wordy by done. cbn [andb].
    replace (2 + length h + 1 + length x) with (length (bslash :: bslash :: h ++ bslash :: x)) by (cbn [length]; rewrite app_length; cbn [length]; lia).
    change (bslash :: bslash :: h ++ bslash :: x ++ c :: r) with ([bslash; bslash] ++ h ++ (bslash :: x) ++ c :: r).
    change (bslash :: bslash :: h ++ bslash :: x) with ([bslash; bslash] ++ h ++ (bslash :: x)).
    rewrite !app_assoc. by rewrite take_app.
Qed.
Lemma wclean_abs v c r : wvolume v → wsep c = true → wclean (v ++ c :: r) = wtext (v :: clean_comps true (wsplits r)).
Proof.
  intros Hv Hc. unfold wclean. rewrite volname_vol, drop_app by done. destruct (wvolume_head v Hv) as (c1&c2&v0&_&_&->).
  rewrite Hc. cbn [wsplits]. rewrite Hc, clean_comps_empty.
  destruct (clean_comps true (wsplits r)) as [|x l] eqn:El; cbn [wtext wjoins]; [done|]. cbn [nameof]. by rewrite <-wjoins_render.
Qed.
Lemma wtext_split v cs : wvolume v → Forall wproper cs → ∃ r, wtext (v :: cs) = v ++ bslash :: r ∧ clean_comps true (wsplits r) = cs.
Proof.
  intros Hv Hcs. destruct cs as [|x l]; [by exists []|]. exists (x ++ render bslash l). split; [done|].
  assert (Forall nosep (x :: l)) as Hn by (eapply Forall_impl; [exact Hcs|]; by intros ? (_&_&_&?)).
  pose proof (wsplits_render (x :: l) ltac:(done) Hn) as Hs. rewrite render_cons in Hs. cbn [wsplits] in Hs. change (wsep bslash) with true in Hs. cbv iota in Hs.
  injection Hs as ->. by apply wproper_id.
Qed.
Lemma wtext_clean v cs : wvolume v → Forall wproper cs → wclean (wtext (v :: cs)) = wtext (v :: cs).
Proof. intros Hv Hcs. destruct (wtext_split v cs Hv Hcs) as (r&Hr&Hc). rewrite Hr, wclean_abs, Hc by done. done. Qed.
Lemma wtext_noslash v cs : wvolume v → Forall wproper cs → slash ∉ wtext (v :: cs).
Proof.
  intros Hv Hcs. destruct (wvolume_head v Hv) as (c1&c2&v0&_&Hs&_).
  assert (slash ∉ render bslash cs) as Hr.
  { clear Hs Hv. induction Hcs as [|c cs (_&_&_&Hc) Hcs IH]; [apply not_elem_of_nil|]. rewrite render_cons, not_elem_of_cons, not_elem_of_app.
    split_and!; [done| |done]. intros Hin. unfold nosep in Hc. rewrite Forall_forall in Hc. by apply Hc in Hin. }
  destruct cs as [|c cs]; cbn [wtext nameof]; rewrite not_elem_of_app; (split; [done|]); [|done].
  rewrite not_elem_of_cons. split; [done|apply not_elem_of_nil].
Qed.
Lemma wtext_rpath v cs : wvolume v → Forall wproper cs → cs ≠ [] → rpath bslash true wvolume (v :: cs) ∧ wtext (v :: cs) = nameof bslash true (v :: cs).
Proof.
  intros Hv Hcs Hne. split.
  - split.
    + apply not_elem_of_cons. split; [destruct (wvolume_head v Hv) as (c1&c2&v0&->&_); done|]. intros Hin. rewrite Forall_forall in Hcs. by destruct (Hcs _ Hin).
    + exists v, cs. split_and!; try done. eapply Forall_impl; [exact Hcs|]. intros c (_&_&_&Hc) Hin. unfold nosep in Hc. rewrite Forall_forall in Hc. by apply Hc in Hin.
  - by destruct cs.
Qed.

(** ** The loop *)
Section loop.
Context (isabs : str → bool) (clean : str → str) (lstat : str → option wkind).
Notation gcanon_step := (gcanon_step isabs clean lstat).
Notation gcanon_loop := (gcanon_loop isabs clean lstat).
Lemma gcanon_step_depth x y : gcanon_step x = CNext y → c_depth y = S (c_depth x) ∧ c_calls y = S (c_calls x) ∧ c_depth x ≤ 128.
Proof.
  destruct x as [p i d n]. unfold WinPath.gcanon_step. destruct (negb (i <? length p)); [done|]. destruct (128 <? d) eqn:E; [done|].
  apply Nat.ltb_ge in E. cbv zeta. destruct (lstat _) as [[|[s|]]|]; try done; intros [= <-]; cbn [c_depth c_calls]; lia.
Qed.
Lemma gcanon_loop_done fuel : ∀ x, 130 ≤ fuel + c_depth x → 0 < fuel → ∃ r, gcanon_loop fuel x = Some r.
Proof.
  induction fuel as [|fuel IH]; intros x Hf H0; [lia|]. cbn [WinPath.gcanon_loop]. destruct (gcanon_step x) as [y|q|e] eqn:E; [|by eexists..].
  apply gcanon_step_depth in E as (H1&_&H2). apply IH; lia.
Qed.
Lemma gcanon_loop_mono fuel : ∀ x r fuel', gcanon_loop fuel x = Some r → fuel ≤ fuel' → gcanon_loop fuel' x = Some r.
Proof.
  induction fuel as [|fuel IH]; intros x r [|fuel'] Hr Hle; [done|done|lia|]. cbn [WinPath.gcanon_loop] in *.
  destruct (gcanon_step x) as [y|q|e]; try done. by apply IH; [|lia].
Qed.
End loop.

(** ** Clean of a text without a volume has none *)
Lemma step_bottom (y : str) st c : last st = Some y → clean_step false st c = [] ∨ last (clean_step false st c) = Some y.
Proof.
  intros Hy. unfold clean_step. case_decide; [by right|]. case_decide.
  - destruct st as [|x st]; [done|]. case_decide; [right; by rewrite last_cons, Hy|].
    destruct st as [|z st]; [by left|]. right. by rewrite last_cons_cons in Hy.
  - right. by rewrite last_cons, Hy.
Qed.
Lemma fold_bottom (y : str) l : ∀ st, last st = Some y → (∀ k, k ≤ length l → foldl (clean_step false) st (take k l) ≠ []) →
  last (foldl (clean_step false) st l) = Some y.
Proof.
  induction l as [|c l IH]; intros st Hy Hk; cbn [foldl]; [done|]. apply IH.
  - destruct (step_bottom y st c Hy) as [H|H]; [|done]. exfalso. apply (Hk 1); [cbn; lia|]. by cbn.
  - intros k Hle. apply (Hk (S k)). cbn. lia.
Qed.
Lemma keeps_first_head y l : keeps_first (y :: l) = true → ∃ l', clean_comps false (y :: l) = y :: l'.
Proof.
  unfold keeps_first. rewrite forallb_forall. intros H.
  assert (∀ k, k ≤ length l → foldl (clean_step false) (clean_step false [] y) (take k l) ≠ []) as Hk.
  { intros k Hle E. assert (In (S k) (seq 1 (length (y :: l)))) as Hin by (apply elem_of_list_In, elem_of_seq; cbn; lia).
    apply H in Hin. unfold clean_comps in Hin. cbn [take foldl] in Hin. by rewrite E in Hin. }
  assert (clean_step false [] y = [y]) as Hy.
  { pose proof (Hk 0 ltac:(lia)) as H0. cbn [take foldl] in H0. unfold clean_step in *. repeat case_decide; try done. by subst. }
  rewrite Hy in Hk. pose proof (fold_bottom y l [y] eq_refl Hk) as Hl. unfold clean_comps. cbn [foldl]. rewrite Hy.
  apply last_Some in Hl as [st Hst]. rewrite Hst. exists (reverse st). by rewrite reverse_app.
Qed.
Lemma wsplits_head s x l : wsplits s = x :: l → ∃ t, s = x ++ t.
Proof.
  revert x l. induction s as [|c s IH]; intros x l H; cbn [wsplits] in H; [injection H as <- <-; by exists []|].
  destruct (wsep c); [injection H as <- <-; by exists (c :: s)|]. destruct (wsplits s) as [|z m] eqn:E; [by destruct (wsplits_nonempty s)|].
  injection H as <- <-. destruct (IH _ _ eq_refl) as [t ->]. by exists t.
Qed.
Lemma fold_pieces l : ∀ st rooted, Forall nosep l → Forall (λ c, c ≠ [] ∧ nosep c) st → Forall (λ c, c ≠ [] ∧ nosep c) (foldl (clean_step rooted) st l).
Proof.
  induction l as [|c l IH]; intros st rooted Hl Hst; cbn [foldl]; [done|]. apply Forall_cons_1 in Hl as [Hc Hl]. apply IH; [done|].
  assert (dotdot ≠ [] ∧ nosep dotdot) as Hdd by (split; [done|]; by repeat constructor).
  unfold clean_step. case_decide as H1; [done|]. case_decide as H2.
  - destruct st as [|x st]; [destruct rooted; [done|by repeat constructor]|]. case_decide; [by constructor|]. by apply Forall_cons_1 in Hst as [_ ?].
  - constructor; [|done]. split; [|done]. intros ->. apply H1. by left.
Qed.
Lemma comps_pieces rooted s : Forall (λ c, c ≠ [] ∧ nosep c) (clean_comps rooted (wsplits s)).
Proof. unfold clean_comps. apply Forall_reverse, fold_pieces; [apply wsplits_pieces|constructor]. Qed.
Lemma volname_rel a s : wsep a = false → (∀ s', s = colon :: s' → letter a = false) → volname (a :: s) = [].
Proof.
  intros Ha Hs. cbn [volname]. destruct s as [|d s]; [done|]. destruct (letter a && Ascii.eqb d colon) eqn:E.
  - apply andb_true_iff in E as [E1 E2]. apply aeqb_eq in E2 as ->. rewrite (Hs s eq_refl) in E1. done.
  - cbn [uncvol]. by rewrite Ha.
Qed.
Lemma volname_rooted d s : wsep d = false → volname (bslash :: d :: s) = [].
Proof. intros Hd. cbn [volname uncvol]. rewrite Hd. by rewrite andb_false_r. Qed.
Lemma wclean_novol p : volname p = [] → volname (wclean p) = [].
Proof.
  intros Hv. unfold wclean. rewrite Hv. cbn [length fromslash fmap list_fmap app isunc]. rewrite drop_0. destruct p as [|c p]; [done|].
  rewrite bool_decide_true by done. cbn [andb]. destruct (wsep c) eqn:Hc.
  - pose proof (comps_pieces true (c :: p)) as Hp. destruct (clean_comps true (wsplits (c :: p))) as [|x l]; [done|].
    apply Forall_cons_1 in Hp as [[Hx Hn] _]. destruct x as [|a x]; [done|]. apply Forall_cons_1 in Hn as [Ha _].
    destruct l; cbn [wjoins app]; by apply volname_rooted.
  - pose proof (comps_pieces false (c :: p)) as Hp. destruct (wsplits (c :: p)) as [|y m] eqn:Ew; [by destruct (wsplits_nonempty (c :: p))|].
    destruct (clean_comps false (y :: m)) as [|x l] eqn:El; [done|]. apply Forall_cons_1 in Hp as [[Hx Hn] _].
    destruct (bool_decide (colon ∈ x) && negb (keeps_first (y :: m))) eqn:Eg; [by apply (volname_rel ".")|].
    destruct x as [|a x]; [done|]. apply Forall_cons_1 in Hn as [Ha Hn].
    assert (∃ t, wjoins ((a :: x) :: l) = a :: x ++ t ∧ ∀ t', t ≠ colon :: t') as (t&->&Ht).
    { destruct l as [|z l]; cbn [wjoins]; [exists []; by rewrite app_nil_r|]. by eexists. }
    apply volname_rel; [done|]. intros s' Hs'. destruct x as [|d x]; cbn [app] in Hs'; [by destruct (Ht s')|]. injection Hs' as -> _.
    rewrite bool_decide_true in Eg by (right; left). cbn [andb] in Eg. apply negb_false_iff in Eg.
    apply keeps_first_head in Eg as [l' Hl']. rewrite El in Hl'. injection Hl' as <- _. apply wsplits_head in Ew as [t' Ht']. rewrite Ht' in Hv.
    cbn [app volname] in Hv. destruct (letter a); [|done]. by rewrite Ascii.eqb_refl in Hv.
Qed.

(** ** A call *)
Section call.
Context (o : winos) (Ho : full_ok o).
Lemma wlocated_ok p isrec q : wlocated o p isrec q → ∃ v cs p', q = v :: cs ∧ wvolume v ∧ Forall wproper cs ∧
  cutdots p = (p', isrec) ∧ wabs o p' = Some (wtext q) ∧ wabs o (wtext q) = Some (wtext q).
Proof.
  intros (p'&v&c&r&Hp&Hn&Hf&Hv&Hc&->). exists v, (clean_comps true (wsplits r)), p'.
  pose proof (wproper_comps _ (wsplits_pieces r)) as Hpr. pose proof (wclean_abs v c r Hv Hc) as Hcl.
  destruct (Ho _ _ Hf) as [_ Hi]. unfold wabs. rewrite Hf, <-Hcl, Hi. cbn [fmap option_fmap option_map]. rewrite Hcl, wtext_clean by done. split_and!; try done.
  destruct (cutdots_spec p) as [(x&Hx&Hcut)|[Hx Hcut]].
  - destruct isrec; [|by destruct (Hn eq_refl x)]. rewrite Hx in Hp. apply app_inv_tail in Hp as ->. done.
  - destruct isrec; [by destruct Hx; exists p'|]. rewrite app_nil_r in Hp. by subst.
Qed.
(** The loop looks at the whole path, and at nothing else before. *)
Lemma wcleanpath_run p isrec v cs : wlocated o p isrec (v :: cs) →
  wcleanpath o p = match w_lstat o (wtext (v :: cs)) with
    | None => inr EStat
    | Some WPlain => inl (wtext (v :: cs), isrec)
    | Some (WLink None) => inr EStat
    | Some (WLink (Some s)) =>
        match gcanon_loop wisabs wclean (w_lstat o) 129
          (CSt (if wisabs s then slash :: s else take 1 (wtext (v :: cs)) ++ s) 2 2 1) with
        | Some (inl q) => inl (q, isrec) | Some (inr e) => inr e | None => inr EDepth
        end
    end.
Proof.
  intros Hl. destruct (wlocated_ok _ _ _ Hl) as (v'&cs'&p'&[= <- <-]&Hv&Hcs&Hcut&Ha&Hi). unfold wcleanpath. rewrite Hcut, Ha.
  unfold wcanonical. rewrite Hi. set (n := wtext (v :: cs)) in *. change 130 with (S 129). cbn [gcanon_loop]. unfold gcanon_step at 1.
  assert (1 < length n) as Hlen.
  { unfold n. destruct (wtext_split v cs Hv Hcs) as (r&->&_). destruct (wvolume_head v Hv) as (c1&c2&v0&->&_). cbn. lia. }
  rewrite (proj2 (Nat.ltb_lt _ _) Hlen). cbn [negb]. change (128 <? 1) with false. cbv iota zeta.
  assert (indexSep slash (drop 1 n) = None) as ->.
  { apply indexSep_None. intros Hin. apply (wtext_noslash v cs Hv Hcs). fold n. apply elem_of_list_lookup in Hin as [k Hk]. rewrite lookup_drop in Hk.
    by apply elem_of_list_lookup_2 in Hk. }
  rewrite take_ge, drop_ge by lia. destruct (w_lstat o n) as [[|[s|]]|]; try done.
  - change 129 with (S 128). cbn [gcanon_loop gcanon_step]. replace (length n + 1 <? length n) with false by (symmetry; apply Nat.ltb_ge; lia).
    cbn [negb]. unfold n. by rewrite (wtext_clean v cs).
  - by rewrite !app_nil_r.
Qed.
(** After the first link the text no longer begins with a volume. *)
Definition lost (p : str) : Prop := ∃ c0 c1 r, p = c0 :: c1 :: r ∧ c1 ≠ colon ∧ wsep c1 = false.
Lemma lost_novol p : lost p → volname p = [].
Proof.
  intros (c0&c1&r&->&H1&H2). cbn [volname uncvol]. rewrite H2, andb_false_r.
  destruct (Ascii.eqb c1 colon) eqn:E; [by apply aeqb_eq in E|]. by rewrite andb_false_r.
Qed.
Lemma lost_loop (Ht : targets_ok o) fuel : ∀ x q, lost (c_p x) → 2 ≤ c_i x → gcanon_loop wisabs wclean (w_lstat o) fuel x = Some (inl q) → volname q = [].
Proof.
  induction fuel as [|fuel IH]; intros [p i d n] q Hp Hi H; [done|]. cbn [gcanon_loop gcanon_step c_p c_i] in *.
  destruct (negb (i <? length p)); [injection H as <-; by apply wclean_novol, lost_novol|]. destruct (128 <? d); [done|].
  cbv zeta in H. set (k := match indexSep slash (drop i p) with None => length p | Some k => i + k end) in H.
  destruct (w_lstat o (take k p)) as [[|[s|]]|] eqn:El; try done.
  - apply IH in H; [done|done|]. cbn [c_i]. unfold k. destruct Hp as (c0&c1&r&->&_). destruct (indexSep _ _); cbn [length]; lia.
  - apply IH in H; [done| |cbn [c_i]; lia]. cbn [c_p]. apply Ht in El as (c&s'&->&Hc1&Hc2). destruct (wisabs (c :: s')); [by exists slash, c, (s' ++ drop k p)|].
    destruct Hp as (c0&c1&r&->&Hp). destruct i as [|[|i]]; [lia|lia|]. eexists c0, c1, _. split; [done|]. done.
Qed.
End call.
