(** * Property theorems C15 and C16: cleaning the path argument (unix) *)
From Verif Require Import Base Event Paths PathsFacts Loop Clean SpecClean CleanFacts.
From Verif Require Import SpecNonRec.

(** ** C15: termination *)
(** The loop always ends, after at most 128 calls of Lstat, whatever the symlinks. *)
Theorem C15_terminates fs cwd p fuel :
  130 ≤ fuel → ∃ r, canonical fs fuel cwd p = Some r ∧ canonical fs 130 cwd p = Some r.
Proof.
  intros Hf. unfold canonical. destruct (abs cwd p) as [a|]; [|by eexists].
  destruct (canon_loop_done fs 130 (CSt a 1 1 0)) as [r Hr]; [cbn; lia|lia|]. exists r. split; [|done]. by eapply canon_loop_mono.
Qed.
(** A run of the loop. *)
Inductive csteps (fs : fsys) : cst → cst → Prop :=
  | cs_refl x : csteps fs x x
  | cs_step x y z : csteps fs x y → canon_step fs y = CNext z → csteps fs x z.
Theorem C15_at_most_128_steps fs a x : csteps fs (CSt a 1 1 0) x → c_calls x ≤ 128.
Proof.
  intros H. assert (c_depth x = S (c_calls x) ∧ c_calls x ≤ 128) as [_ ?]; [|done].
  remember (CSt a 1 1 0) as x0 eqn:E. induction H as [x|x y z _ IH Hs]; [subst; cbn; lia|].
  apply canon_step_depth in Hs as (H1&H2&H3). destruct (IH E). lia.
Qed.

(** ** C15: what a successful call returns *)
(** [abs cwd p'] is the argument made absolute lexically; [ph] is the file it
    denotes. *)
Theorem C15_success_partial fs cwd p q isrec :
  fs_ok fs → root_links_ok fs → (∀ w, cwd = Some w → isabs w = true) →
  cleanpath fs cwd p = inl (q, isrec) →
  ∃ p' a ph, p = p' ++ (if isrec then b "..." else []) ∧ abs cwd p' = Some a ∧
    resolves fs [] (splits a) ph ∧ q = topath ph ∧ real fs ph.
Proof.
  intros Hok Hl Hw. unfold cleanpath. destruct (cutdots p) as [p' isrec'] eqn:Ec.
  destruct (abs cwd p') as [a|] eqn:Ea; [|done]. destruct (abs_abs cwd p' a Hw Ea) as (Haa&Hac&_).
  unfold canonical, abs at 1. rewrite Haa, Hac. pose proof (canon_loop_inv fs 130 Hok Hl a 1 1 0 Haa (cinv_start fs a (proj1 Hok) Haa)) as Hi.
  destruct (canon_loop fs 130 (CSt a 1 1 0)) as [[r|[]]|]; try done. intros [= -> <-].
  destruct Hi as (ph&Hres&->&Hre). exists p', a, ph. split_and!; try done.
  destruct (cutdots_spec p) as [(x&->&Hc)|[_ Hc]]; rewrite Ec in Hc; injection Hc as -> ->; [done|by rewrite app_nil_r].
Qed.
(** The result is absolute, clean, and a path the tree accepts. *)
Theorem C15_result_clean fs cwd p q isrec :
  fs_ok fs → root_links_ok fs → (∀ w, cwd = Some w → isabs w = true) →
  cleanpath fs cwd p = inl (q, isrec) →
  isabs q = true ∧ clean q = q ∧ ∃ tp, q = render slash tp ∧ upath slash tp ∧ dot ∉ tp ∧ dotdot ∉ tp.
Proof.
  intros Hok Hl Hw Hc. destruct (C15_success_partial _ _ _ _ _ Hok Hl Hw Hc) as (p'&a&ph&_&_&_&->&_&_&Hpr).
  split_and!; [apply topath_abs|by apply clean_topath|].
  exists (match ph with [] => [[]] | _ => ph end). split; [done|]. destruct ph as [|c ph].
  - split_and!; [split_and!; [done|constructor; [by apply not_elem_of_nil|constructor]|by apply not_elem_of_nil]|by rewrite elem_of_list_singleton..].
  - assert (∀ x, x ∈ c :: ph → x ≠ [] ∧ x ≠ dot ∧ x ≠ dotdot ∧ slash ∉ x) as Hall by (by apply Forall_forall).
    split_and!; [split_and!; [done| |]| |].
    + apply Forall_forall. intros x Hx. by apply Hall.
    + intros Hx. destruct (removelast_prefix (c :: ph)) as [z Hz]. destruct (Hall []) as [? _]; [|done]. rewrite Hz. apply elem_of_app. by left.
    + intros Hx. by destruct (Hall _ Hx) as (_&?&_).
    + intros Hx. by destruct (Hall _ Hx) as (_&_&?&_).
Qed.
(** If a call of Lstat or Readlink fails, the argument denotes nothing; in particular
    (with C15_terminates) a symlink cycle gives an error. *)
Theorem C15_error_partial fs cwd p e :
  fs_ok fs → root_links_ok fs → (∀ w, cwd = Some w → isabs w = true) →
  cleanpath fs cwd p = inr e →
  match e with
  | EStat => ∃ a, abs cwd (cutdots p).1 = Some a ∧ ∀ ph, ¬ resolves fs [] (splits a) ph
  | EAbs => abs cwd (cutdots p).1 = None
  | EDepth => True
  end.
Proof.
  intros Hok Hl Hw. unfold cleanpath. destruct (cutdots p) as [p' isrec'] eqn:Ec. cbn [fst].
  destruct (abs cwd p') as [a|] eqn:Ea; [|by intros [= <-]]. destruct (abs_abs cwd p' a Hw Ea) as (Haa&Hac&_).
  unfold canonical, abs at 1. rewrite Haa, Hac. pose proof (canon_loop_inv fs 130 Hok Hl a 1 1 0 Haa (cinv_start fs a (proj1 Hok) Haa)) as Hi.
  destruct (canon_loop fs 130 (CSt a 1 1 0)) as [[r|[]]|]; try done; intros [= <-]; try done. by exists a.
Qed.
Theorem C15_cycle_partial fs cwd p :
  fs_ok fs → root_links_ok fs → (∀ w, cwd = Some w → isabs w = true) →
  (∀ a ph, abs cwd (cutdots p).1 = Some a → ¬ resolves fs [] (splits a) ph) → ∃ e, cleanpath fs cwd p = inr e.
Proof.
  intros Hok Hl Hw Hno. destruct (cleanpath fs cwd p) as [[q isrec]|e] eqn:Ec; [|by eexists]. exfalso.
  pose proof Ec as Ec'. unfold cleanpath in Ec'. destruct (C15_success_partial _ _ _ _ _ Hok Hl Hw Ec) as (p'&a&ph&Hp&Ha&Hres&_).
  eapply Hno; [|exact Hres]. destruct (cutdots p) as [p'' isrec'] eqn:Ed. cbn [fst].
  destruct (abs cwd p'') as [a'|] eqn:Ea'; [|done]. assert (isrec' = isrec) as -> by (destruct (canonical fs 130 cwd a') as [[|]|]; congruence).
  assert (p'' = p') as ->; [|congruence].
  destruct (cutdots_spec p) as [(x&Hx&Hc)|[_ Hc]]; rewrite Ed in Hc; injection Hc as -> ->; rewrite Hp in *.
  - by apply app_inv_tail in Hx.
  - by rewrite app_nil_r.
Qed.
(** A path without symlinks is returned as it is if it has at most 128 components;
    otherwise, cycle or not, the call fails. *)
Theorem C15_real_paths fs cwd q :
  fs_ok fs → real fs q →
  canonical fs 130 cwd (topath q) = Some (if length q <=? 128 then inl (topath q) else inr EDepth).
Proof.
  intros [Hr _] Hq. unfold canonical, abs. rewrite topath_abs, clean_topath by apply Hq. destruct q as [|c q]; [done|].
  destruct (Nat.le_gt_cases (length (c :: q)) 129) as [Hle|Hgt].
  - apply (canon_loop_real fs (c :: q) Hr [] 130 0); [done|done|lia|cbn; lia].
  - destruct (canon_loop_done fs 130 (CSt (topath (c :: q)) 1 1 0)) as [r Hl]; [cbn; lia|lia|].
    rewrite Hl. pose proof (canon_loop_real fs (c :: q) Hr [] (130 + length (c :: q)) 0) as Hx. cbn [app render length] in Hx.
    rewrite (canon_loop_mono fs 130 _ r _ Hl) in Hx by lia. apply Hx; [done|done|lia|lia].
Qed.

(** ** Instances *)
(** /d, /d/e, /f (file), /l -> d/e, /d/up -> ../f, /d/abs -> /l *)
Definition fs1 : fsys := list_to_map [([], KDir); ([b "d"], KDir); ([b "d"; b "e"], KDir); ([b "f"], KFile);
  ([b "l"], KLink (b "d/e")); ([b "d"; b "up"], KLink (b "../f")); ([b "d"; b "abs"], KLink (b "/l"))].
Lemma fs1_ok : fs_ok fs1 ∧ root_links_ok fs1.
Proof.
  assert (map_Forall (λ k v, match v with KLink s => s ≠ [] | _ => True end) fs1) as H1.
  { apply map_Forall_to_list. vm_compute. repeat constructor; done. }
  assert (map_Forall (λ k v, match k, v with [_], KLink s => isabs s = false → ∃ k, look fs1 [] (hd [] (splits s)) = Some k ∧ ∀ s', k ≠ KLink s' | _, _ => True end) fs1) as H2.
  { apply map_Forall_to_list. repeat (apply Forall_cons; split; [vm_compute; try done; intros _; exists KDir; done|]). by apply Forall_nil. }
  split; [split; [done|]|].
  - intros d s Hd. by apply H1 in Hd.
  - intros x s Hx. by apply H2 in Hx.
Qed.
Example C15_ex :
  cleanpath fs1 (Some (b "/d")) (b "abs/./...") = inl (b "/d/e", true) ∧
  cleanpath fs1 None (b "/d/up") = inl (b "/f", false) ∧
  cleanpath fs1 None (b "/l/../../f/.") = inl (b "/f", false) ∧
  cleanpath fs1 None (b "/d/x") = inr EStat ∧ cleanpath fs1 None (b "d") = inr EAbs.
Proof. by vm_compute. Qed.
Example C15_ex_cycle :
  let fs := list_to_map [([], KDir); ([b "d"], KDir); ([b "d"; b "x"], KLink (b "y")); ([b "d"; b "y"], KLink (b "x"))] : fsys in
  cleanpath fs None (b "/d/x") = inr EDepth.
Proof. by vm_compute. Qed.
Example C15_real_ex : real fs1 [b "d"; b "e"] ∧ topath [b "d"; b "e"] = b "/d/e".
Proof.
  split; [|done]. split_and!; [by exists KDir| |repeat constructor; try done; by apply (bool_decide_unpack _)].
  intros q' [x Hx] Hne. destruct q' as [|y [|z [|]]]; [done|by injection Hx as <- _| |done]. injection Hx as <- <- _. done.
Qed.

(** ** Refutation: chains of relative symlinks in the root directory *)
(** /l1 -> l2, /l2 -> dir, /ldir and /dir are different directories: watching /l1
    watches /ldir.  And with one-letter names, /m -> x, /x -> y: the result /x is
    itself a symlink. *)
Definition fs2 : fsys := list_to_map [([], KDir); ([b "l1"], KLink (b "l2")); ([b "l2"], KLink (b "dir"));
  ([b "dir"], KDir); ([b "ldir"], KDir); ([b "m"], KLink (b "x")); ([b "x"], KLink (b "y")); ([b "y"], KDir)].
Theorem C15_chained_links_refuted :
  cleanpath fs2 None (b "/l1") = inl (b "/ldir", false) ∧ resolves fs2 [] (splits (b "/l1")) [b "dir"] ∧
  cleanpath fs2 None (b "/m") = inl (b "/x", false) ∧ fs2 !! [b "x"] = Some (KLink (b "y")) ∧
  resolves fs2 [] (splits (b "/m")) [b "y"].
Proof. split_and!; [by vm_compute|exists 2; by vm_compute|by vm_compute|by vm_compute|exists 2; by vm_compute]. Qed.

(** ** C16 for the whole of cleanpath *)
Theorem C16_cleanpath fs cwd p q isrec :
  cleanpath fs cwd p = inl (q, isrec) → isrec = true ↔ ∃ p', p = p' ++ b "...".
Proof.
  unfold cleanpath. destruct (cutdots p) as [p' isrec'] eqn:Ec. destruct (abs cwd p') as [a|]; [|done].
  destruct (canonical fs 130 cwd a) as [[r|]|]; try done. intros [= _ <-].
  destruct (cutdots_spec p) as [(x&->&Hc)|[Hn Hc]]; rewrite Ec in Hc; injection Hc as -> ->.
  - split; [|done]. intros _. by exists x.
  - split; [done|]. intros [x Hx]. destruct Hn. by exists x.
Qed.

Print Assumptions C15_terminates.
Print Assumptions C15_at_most_128_steps.
Print Assumptions C15_success_partial.
Print Assumptions C15_result_clean.
Print Assumptions C15_error_partial.
Print Assumptions C15_cycle_partial.
Print Assumptions C15_real_paths.
Print Assumptions C15_chained_links_refuted.
Print Assumptions C16_cleanpath.
