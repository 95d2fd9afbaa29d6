(** * Property theorems C78: the path argument on Windows *)
From Verif Require Import Base Event Paths PathsFacts Loop Clean CleanFacts Node SpecTree SpecNonRec SpecOS SpecRec RecRun
  Readdcw SpecReaddcw SpecWin WinPath SpecWinPath WinPathFacts.

(** The model of the loop is the one of C15: with unix's path/filepath and filesystem it
    gives the same results. *)
Definition unix_lstat (fs : fsys) (n : str) : option wkind :=
  match lstat fs n with None => None | Some (KLink s) => Some (WLink (Some s)) | Some _ => Some WPlain end.
Theorem C78_same_loop fs fuel x : gcanon_loop isabs clean (unix_lstat fs) fuel x = canon_loop fs fuel x.
Proof.
  assert (∀ x, gcanon_step isabs clean (unix_lstat fs) x = canon_step fs x) as H.
  { intros [p i d n]. unfold gcanon_step, canon_step. destruct (negb (i <? length p)); [done|]. destruct (128 <? d); [done|]. cbv zeta.
    set (k := match indexSep slash (drop i p) with Some k => _ | None => _ end).
    unfold unix_lstat, readlink. destruct (lstat fs (take k p)) as [[| |s]|]; done. }
  revert x. induction fuel as [|fuel IH]; intros x; cbn [gcanon_loop canon_loop]; [done|]. rewrite H. by destruct (canon_step fs x).
Qed.
(** It always ends. *)
Theorem C78_terminates o p fuel : 130 ≤ fuel → ∃ r, wcanonical o fuel p = Some r ∧ wcanonical o 130 p = Some r.
Proof.
  intros Hf. unfold wcanonical. destruct (wabs o p) as [a|]; [|by eexists].
  destruct (gcanon_loop_done wisabs wclean (w_lstat o) 130 (CSt a 1 1 0)) as [r Hr]; [cbn; lia|lia|]. exists r. split; [|done]. by eapply gcanon_loop_mono.
Qed.

(** ** A path that does not end in a symlink *)
(** Whatever spelling is used, what is registered is the absolute path the OS makes of it:
    a volume and names, none of them empty, "." or "..", joined by backslashes; the tree
    accepts it and finds its volume, unless it is the root directory of a volume. *)
Theorem C78_path o p isrec q : full_ok o → wlocated o p isrec q → w_lstat o (wtext q) = Some WPlain →
  wcleanpath o p = inl (wtext q, isrec) ∧ wisabs (wtext q) = true ∧ wclean (wtext q) = wtext q ∧ volname (wtext q) = hd [] q ∧
  Forall (λ c, c ≠ [] ∧ c ≠ dot ∧ c ≠ dotdot ∧ slash ∉ c ∧ bslash ∉ c) (tl q) ∧
  (tl q ≠ [] → rpath bslash true wvolume q ∧ wtext q = nameof bslash true q).
Proof.
  intros Ho Hl Hs. destruct (wlocated_ok o Ho _ _ _ Hl) as (v&cs&p'&->&Hv&Hcs&_). cbn [hd tl].
  rewrite (wcleanpath_run o Ho _ _ _ _ Hl), Hs. destruct (wtext_split v cs Hv Hcs) as (r&Hr&_).
  assert (volname (wtext (v :: cs)) = v) as Hvn by (rewrite Hr; by apply volname_vol). split_and!; try done.
  - unfold wisabs. rewrite Hvn. destruct (wvolume_head v Hv) as (c1&c2&v0&E&_). destruct v as [|a v]; [done|]. destruct (isunc _); [done|]. by rewrite Hr, drop_app.
  - by apply wtext_clean.
  - eapply Forall_impl; [exact Hcs|]. intros c (H1&H2&H3&H4). unfold nosep in H4. rewrite Forall_forall in H4. split_and!; try done; intros Hin; by apply H4 in Hin.
  - intros Hne. by apply wtext_rpath.
Qed.
(** If the file cannot be looked at, or the OS makes nothing of the text, there is an error. *)
Theorem C78_error o p isrec q : full_ok o →
  (w_full o (cutdots p).1 = None → wcleanpath o p = inr EAbs) ∧
  (wlocated o p isrec q → w_lstat o (wtext q) = None → wcleanpath o p = inr EStat).
Proof.
  intros Ho. split.
  - intros Hf. unfold wcleanpath. destruct (cutdots p) as [p' r]. cbn [fst] in Hf. unfold wabs. by rewrite Hf.
  - intros Hl Hs. destruct (wlocated_ok o Ho _ _ _ Hl) as (v&cs&p'&->&_). by rewrite (wcleanpath_run o Ho _ _ _ _ Hl), Hs.
Qed.
(** Every text that the OS can make into a path has such a path. *)
Theorem C78_located o p f : full_ok o → w_full o (cutdots p).1 = Some f → ∃ q, wlocated o p (cutdots p).2 q.
Proof.
  intros Ho Hf. destruct (Ho _ _ Hf) as [(v&c&r&->&Hv&Hc) _]. eexists. destruct (cutdots_spec p) as [(x&Hx&Hcut)|[Hx Hcut]]; rewrite Hcut in *; cbn [fst snd] in *.
  - exists x, v, c, r. by split_and!.
  - exists p, v, c, r. split_and!; try done; [by rewrite app_nil_r|]. intros _ x Hp. apply Hx. by exists x.
Qed.

(** ** Symlinks (refuted) *)
(** If the path is that of a symlink, what is registered is never an absolute path, so
    never the file the link leads to. *)
Theorem C78_link_refuted o p isrec q t x isrec' : full_ok o → targets_ok o →
  wlocated o p isrec q → w_lstat o (wtext q) = Some (WLink t) → wcleanpath o p = inl (x, isrec') → wisabs x = false ∧ volname x = [].
Proof.
  intros Ho Ht Hl Hs. destruct (wlocated_ok o Ho _ _ _ Hl) as (v&cs&p'&->&Hv&Hcs&_). rewrite (wcleanpath_run o Ho _ _ _ _ Hl), Hs. destruct t as [s|]; [|done].
  destruct (gcanon_loop _ _ _ 129 _) as [[x'|]|] eqn:E; try done. intros [= <- <-].
  assert (volname x' = []) as Hx; [|split; [unfold wisabs; by rewrite Hx|done]].
  eapply (lost_loop o Ht); [|..|exact E]; cbn [c_p c_i]; [|lia]. apply Ht in Hs as (c&s'&->&H1&H2).
  destruct (wisabs (c :: s')); [by exists slash, c, s'|]. destruct (wtext_split v cs Hv Hcs) as (r&->&_). destruct (wvolume_head v Hv) as (c1&c2&v0&->&_).
  by exists c1, c, s'.
Qed.
(** A relative target is appended to the first letter of the path. *)
Theorem C78_link_relative o p isrec q s : full_ok o → wlocated o p isrec q →
  w_lstat o (wtext q) = Some (WLink (Some s)) → wisabs s = false → slash ∉ s → 1 < length s →
  w_lstat o (take 1 (wtext q) ++ s) = Some WPlain → wcleanpath o p = inl (wclean (take 1 (wtext q) ++ s), isrec).
Proof.
  intros Ho Hl Hs Hr Hsl Hlen Hx. destruct (wlocated_ok o Ho _ _ _ Hl) as (v&cs&p'&->&Hv&Hcs&_). rewrite (wcleanpath_run o Ho _ _ _ _ Hl), Hs, Hr.
  assert (∃ c, take 1 (wtext (v :: cs)) = [c]) as [c Hc].
  { destruct (wtext_split v cs Hv Hcs) as (r&->&_). destruct (wvolume_head v Hv) as (c1&c2&v0&->&_). by exists c1. }
  rewrite Hc in *. cbn [app] in *. change 129 with (S (S 127)). cbn [gcanon_loop]. unfold gcanon_step at 1.
  replace (2 <? length (c :: s)) with true by (symmetry; apply Nat.ltb_lt; cbn [length]; lia). change (128 <? 2) with false. cbn [negb]. cbv iota zeta.
  assert (indexSep slash (drop 2 (c :: s)) = None) as ->.
  { apply indexSep_None. cbn [drop]. intros Hin. apply Hsl. apply elem_of_list_lookup in Hin as [k Hk]. rewrite lookup_drop in Hk. by apply elem_of_list_lookup_2 in Hk. }
  rewrite take_ge by lia. rewrite Hx. unfold gcanon_step.
  by replace (length (c :: s) + 1 <? length (c :: s)) with false by (symmetry; apply Nat.ltb_ge; lia).
Qed.
(** Links on the way are not looked at at all: only the answers for the whole path matter. *)
Theorem C78_whole_only o o' p isrec q : full_ok o → full_ok o' → (∀ x, w_full o x = w_full o' x) → wlocated o p isrec q →
  w_lstat o (wtext q) = Some WPlain → w_lstat o' (wtext q) = Some WPlain → wcleanpath o p = wcleanpath o' p.
Proof.
  intros Ho Ho' Hf Hl H1 H2. destruct (C78_path o p isrec q Ho Hl H1) as [-> _].
  assert (wlocated o' p isrec q) as Hl'. { destruct Hl as (p'&v&c&r&Hp&Hn&Hx&Hrest). exists p', v, c, r. by rewrite <-Hf. }
  by destruct (C78_path o' p isrec q Ho' Hl' H2) as [-> _].
Qed.

(** ** The assumptions of C71 about path/filepath *)
(** filepath.VolumeName and filepath.Join do on the paths registered what C30-C35 and C71 take them to do. *)
Theorem C78_volume q : rpath bslash true wvolume q → volname (nameof bslash true q) = default [] (head q).
Proof. intros (_&v&cs&->&Hv&Hcs&_). destruct cs as [|c cs]; [done|]. cbn [nameof render head default]. by apply volname_vol. Qed.
Definition tidy (r : path) : Prop := Forall (λ c, c ≠ dot ∧ c ≠ dotdot ∧ slash ∉ c) r.
Theorem C78_join p r : rpath bslash true wvolume p → r ≠ [] → [] ∉ r → comps_ok bslash r → tidy (tl p) → tidy r →
  winjoin (nameof bslash true p) (relname r) = nameof bslash true (p ++ r).
Proof.
  intros (Hp0&v&cs&->&Hv&Hcs&Hok) Hr Hr0 Hrc Ht1 Ht2. cbn [tl] in Ht1. unfold winjoin, relname.
  assert (Forall wproper (cs ++ r)) as Hpr.
  { assert (∀ l, [] ∉ l → comps_ok bslash l → tidy l → Forall wproper l) as H.
    { intros l H0 Hc Ht. apply Forall_forall. intros c Hin. unfold tidy in Ht. rewrite Forall_forall in Hc, Ht. destruct (Ht c Hin) as (H1&H2&H3). split_and!; try done; [by intros ->|].
      apply Forall_forall. intros x Hx. destruct (wsep x) eqn:E; [|done]. apply wsep_cases in E as [->| ->]; [by destruct (Hc c Hin)|done]. }
    apply Forall_app. split; [apply H|by apply H]; try done. intros Hin. apply Hp0. by right. }
  destruct r as [|x r]; [done|]. cbn [nameof app]. rewrite <-app_assoc. cbn [render tail].
  change (v ++ render bslash cs ++ bslash :: x ++ render bslash r) with (v ++ render bslash cs ++ render bslash (x :: r)). rewrite <-render_app.
  destruct cs as [|y cs]; [done|]. change (v ++ render bslash ((y :: cs) ++ x :: r)) with (wtext (v :: (y :: cs) ++ x :: r)). by rewrite wtext_clean.
Qed.

(** ** Instance *)
(** The working directory is C:\w, with a file Cdir in it; there is a directory C:\dir with
    a file f; C:\l and C:\m are links to it, the first relative. *)
Definition ex_full (p : str) : option str :=
  match p with
  | c :: d :: e :: r => if letter c && Ascii.eqb d colon && wsep e then Some p else if bool_decide (volname p = []) then Some (b "C:\w\" ++ p) else None
  | _ => if bool_decide (volname p = []) then Some (b "C:\w\" ++ p) else None
  end.
Definition ex_lstat (n : str) : option wkind :=
  if bool_decide (n ∈ bytes_of <$> ["C:\"; "C:\w"; "C:\w\Cdir"; "Cdir"; "C:\dir"; "C:\dir\f"; "C:\l\f"; "C:\m\f"]%string) then Some WPlain
  else if bool_decide (n = b "C:\l") then Some (WLink (Some (b "dir")))
  else if bool_decide (n = b "C:\m") then Some (WLink (Some (b "C:\dir"))) else None.
Definition ex_os : winos := WinOS ex_full ex_lstat.
Lemma ex_full_ok : full_ok ex_os.
Proof.
  assert (∀ a r, letter a = true → ex_full (wtext ([a; colon] :: clean_comps true (wsplits r))) = Some (wtext ([a; colon] :: clean_comps true (wsplits r)))) as Hi.
  { intros a r Ha. destruct (wtext_split [a; colon] (clean_comps true (wsplits r))) as (r'&->&_); [left; exists a; by rewrite letter_spec|apply wproper_comps, wsplits_pieces|].
    cbn [app ex_full]. by rewrite Ha. }
  assert (∀ a c r, letter a = true → wsep c = true → (∃ v c' r', [a; colon] ++ c :: r = v ++ c' :: r' ∧ wvolume v ∧ wsep c' = true) ∧
    ex_full (wclean ([a; colon] ++ c :: r)) = Some (wclean ([a; colon] ++ c :: r))) as H.
  { intros a c r Ha Hc. assert (wvolume [a; colon]) as Hv by (left; exists a; by rewrite letter_spec). split; [by exists [a; colon], c, r|]. rewrite wclean_abs by done. by apply Hi. }
  assert (∀ p, (∃ v c r, b "C:\w\" ++ p = v ++ c :: r ∧ wvolume v ∧ wsep c = true) ∧ ex_full (wclean (b "C:\w\" ++ p)) = Some (wclean (b "C:\w\" ++ p))) as H'.
  { intros p. apply (H "C"%char bslash (b "w\" ++ p)); done. }
  intros p f Hf. cbn [w_full ex_os] in *. unfold ex_full in Hf. destruct p as [|c [|d [|e r]]];
    try (destruct (bool_decide _); [injection Hf as <-; apply H'|done]).
  destruct (letter c && Ascii.eqb d colon && wsep e) eqn:E; [|destruct (bool_decide _); [injection Hf as <-; apply H'|done]].
  apply andb_true_iff in E as [[E1 E2%aeqb_eq]%andb_true_iff E3]. subst d. injection Hf as <-. by apply (H c e r).
Qed.
Lemma ex_targets_ok : targets_ok ex_os.
Proof.
  intros n s. cbn [w_lstat ex_os]. unfold ex_lstat. destruct (bool_decide _); [done|].
  destruct (bool_decide _); [intros [= <-]; exists "d"%char, (b "ir"); by vm_compute|].
  destruct (bool_decide _); [intros [= <-]; exists "C"%char, (b ":\dir"); by vm_compute|]. done.
Qed.
Lemma ex_located p isrec q : wlocated ex_os p isrec q ↔ ∃ p', cutdots p = (p', isrec) ∧ ∃ f, ex_full p' = Some f ∧ q = fromslash (volname f) :: clean_comps true (wsplits (drop (length (volname f)) f)).
Proof.
  split.
  - intros Hl. pose proof Hl as Hl'. destruct (wlocated_ok _ ex_full_ok _ _ _ Hl) as (v&cs&p1&_&_&_&Hcut&_). exists p1. split; [done|].
    destruct Hl' as (p'&v'&c&r&Hp&Hn&Hf&Hv&Hc&->). assert (p' = p1) as ->.
    { destruct (cutdots_spec p) as [(x&Hx&Hcut')|[Hx Hcut']]; rewrite Hcut in Hcut'; injection Hcut' as -> ->; [rewrite Hx in Hp; by apply app_inv_tail in Hp|by rewrite app_nil_r in Hp]. }
    exists (v' ++ c :: r). split; [done|]. rewrite volname_vol, drop_app by done. destruct (wvolume_head v' Hv) as (c1&c2&v0&_&_&->). cbn [wsplits]. by rewrite Hc.
  - intros (p'&Hcut&f&Hf&->). destruct (C78_located ex_os p f ex_full_ok) as [q Hq]; [by rewrite Hcut|]. rewrite Hcut in Hq. cbn [snd] in Hq.
    destruct Hq as (p2&v&c&r&Hp&Hn&Hf'&Hv&Hc&->). assert (p2 = p') as ->.
    { destruct (cutdots_spec p) as [(x&Hx&Hcut')|[Hx Hcut']]; rewrite Hcut in Hcut'; injection Hcut' as -> ->; [rewrite Hx in Hp; by apply app_inv_tail in Hp|by rewrite app_nil_r in Hp]. }
    exists p', v, c, r. cbn [w_full ex_os] in *. rewrite Hf in Hf'. injection Hf' as ->. split_and!; try done.
    rewrite volname_vol, drop_app by done. destruct (wvolume_head v Hv) as (c1&c2&v0&_&_&->). cbn [wsplits]. by rewrite Hc.
Qed.
Local Ltac located := apply ex_located; eexists; split; [vm_compute; reflexivity|]; eexists; split; [vm_compute; reflexivity|vm_compute; reflexivity].
Example C78_hyps :
  full_ok ex_os ∧ targets_ok ex_os ∧
  wlocated ex_os (b "../dir/./f...") true [b "C:"; b "dir"; b "f"] ∧ wcleanpath ex_os (b "../dir/./f...") = inl (b "C:\dir\f", true) ∧
  wlocated ex_os (b "c:\none") false [b "c:"; b "none"] ∧ wcleanpath ex_os (b "c:\none") = inr EStat ∧
  wlocated ex_os (b "C:\") false [b "C:"] ∧ wcleanpath ex_os (b "C:\") = inl (b "C:\", false).
Proof.
  split; [apply ex_full_ok|]. split; [apply ex_targets_ok|].
  split; [by located|]. split; [by vm_compute|]. split; [by located|]. split; [by vm_compute|]. split; [by located|by vm_compute].
Qed.
(** Watch on C:\l, a link to C:\dir, registers the file Cdir of the working directory; on
    C:\m, which has the absolute path as its target, it fails; and the file f in the
    directory is registered under two names, by which no event of one reaches the other. *)
Example C78_links_refuted :
  wlocated ex_os (b "C:\l") false [b "C:"; b "l"] ∧ ex_lstat (b "C:\l") = Some (WLink (Some (b "dir"))) ∧
  wcleanpath ex_os (b "C:\l") = inl (b "Cdir", false) ∧
  ex_lstat (b "C:\m") = Some (WLink (Some (b "C:\dir"))) ∧ wcleanpath ex_os (b "C:\m") = inr EStat ∧
  wcleanpath ex_os (b "C:\l\f") = inl (b "C:\l\f", false) ∧ wcleanpath ex_os (b "C:\dir\f") = inl (b "C:\dir\f", false).
Proof.
  split; [by located|]. repeat (split; [by vm_compute|]). by vm_compute.
Qed.

Print Assumptions C78_same_loop.
Print Assumptions C78_terminates.
Print Assumptions C78_path.
Print Assumptions C78_error.
Print Assumptions C78_located.
Print Assumptions C78_link_refuted.
Print Assumptions C78_link_relative.
Print Assumptions C78_whole_only.
Print Assumptions C78_volume.
Print Assumptions C78_join.
Print Assumptions C78_hyps.
Print Assumptions C78_links_refuted.
(** Some values of filepath.Clean. *)
Example C78_ex_clean :
  (wclean <$> [b ""; b "."; b "a\.."; b "C:"; b "C:\"; b "C:a/.\b"; b "C:\..\a"; b "//h/s"; b "\\h\s\..\x/"; b "x\..\c:y"])
  = [b "."; b "."; b "."; b "C:."; b "C:\"; b "C:a\b"; b "C:\a"; b "\\h\s"; b "\\h\s\x"; b ".\c:y"].
Proof. by vm_compute. Qed.
