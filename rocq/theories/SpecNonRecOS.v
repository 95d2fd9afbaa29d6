(** * SpecNonRecOS: histories in which the watcher behaves *)
From Verif Require Import Base Event Watchpoint Paths PathsFacts Loop Node NonRec SpecTree SpecNonRec.
Local Open Scope N_scope.

Section spec.
Context (P : platform) (sepc : ascii).

(** [nexec], with a condition [Q] on every operation and the environment it runs in. *)
Inductive nexec_where (Q : env → nop → Prop) : list (nop * result) → st → Prop :=
  | nw_init : nexec_where Q [] init_st
  | nw_step tr s E o s' r :
      nexec_where Q tr s → nenv P sepc E → nop_ok P sepc o → Q E o →
      nstep sepc E s o = (s', r) → nexec_where Q (tr ++ [(o, r)]) s'.
Lemma nexec_where_nexec Q tr s : nexec_where Q tr s → nexec P sepc tr s.
Proof. induction 1; [constructor|]. by eapply nexec_step. Qed.

(** The watcher performs every call. *)
Definition reliable (E : env) : Prop := ∀ l c, e_W E l c = true.
(** Events are named (not Event(0)); the watcher may refuse calls made on behalf of
    a plain Watch, which reports it, but no others; no recursive Watch on the root
    directory itself. *)
Definition os_good (E : env) (o : nop) : Prop :=
  match o with
  | NWatch p false n e => e ≠ 0
  | NWatch p true n e => e ≠ 0 ∧ [] ∉ p ∧ reliable E
  | NStop _ | NEvent _ _ => reliable E
  end.

(** ** Who still holds a watch *)
Notation trace := (list (nop * result)).
(** Channel [n] was passed to Watch (successfully or not) and not stopped since. *)
Definition outstanding (tr : trace) (n : positive) : Prop :=
  ∃ tr1 p isrec e r tr2, tr = tr1 ++ (NWatch p isrec n e, r) :: tr2 ∧ ∀ r', (NStop n, r') ∉ tr2.
Definition all_stopped (tr : trace) : Prop := ∀ n, ¬ outstanding tr n.

(** Channel [n] asked to watch [p] (successfully or not), was not stopped since,
    and neither [p] nor a directory above it was removed since. *)
Definition holds (tr : trace) (p : path) (n : positive) : Prop :=
  ∃ tr1 isrec e r tr2, tr = tr1 ++ (NWatch p isrec n e, r) :: tr2 ∧ (∀ r', (NStop n, r') ∉ tr2) ∧
    (∀ q r', (NEvent (Remove P) q, r') ∈ tr2 → ¬ q `prefix_of` p).

(** A successful recursive Watch of [n] on [p] for [e] that is still in force:
    [n] was not stopped and neither [p] nor a directory above it removed since. *)
Definition in_force (tr : trace) (p : path) (n : positive) (e : N) : Prop :=
  ∃ tr1 tr2, tr = tr1 ++ (NWatch p true n e, ROk) :: tr2 ∧
    (∀ r, (NStop n, r) ∉ tr2) ∧
    (∀ q r, (NEvent (Remove P) q, r) ∈ tr2 → ¬ q `prefix_of` p).

(** Somebody asked to watch [p] or something below it (successfully or not), and
    [p] was not removed since. *)
Definition touched (tr : trace) (p : path) : Prop :=
  ∃ tr1 p' isrec n e r tr2, tr = tr1 ++ (NWatch p' isrec n e, r) :: tr2 ∧ p `prefix_of` p' ∧
    (∀ q r', (NEvent (Remove P) q, r') ∈ tr2 → ¬ q `prefix_of` p).

(** ** Filesystems *)
(** A finite set of directories (not counting the root directory), closed under
    parents. *)
Definition dirs_ok (D : gset path) : Prop :=
  (∀ p, p ∈ D → gpath sepc p) ∧ (∀ p c, p ++ [c] ∈ D → p = [] ∨ p ∈ D).
(** During the operation ReadDir sees exactly the directories [D] (and any files
    and symlinks), and the run is long enough to list them all. *)
Definition fs_env (D : gset path) (E : env) : Prop :=
  (∀ i p, p ∈ D → ∃ ents, e_readdir E i (render sepc p) = Some ents ∧ NoDup (de_name <$> ents) ∧
      ∀ c, p ++ [c] ∈ D ↔ ∃ de, de ∈ ents ∧ de_dir de = true ∧ de_symlink de = false ∧ de_name de = c) ∧
  (∀ i p, gpath sepc p → p ∉ D → e_readdir E i (render sepc p) = None) ∧
  (size D < e_fuel E)%nat.

(** Histories on a changing filesystem: Watch and Stop calls, creation of a
    directory (possibly with directories inside) nobody had asked to watch before,
    followed by the processing of its event, and removal of a directory with all
    its contents, followed by the processing of its event. *)
Inductive fexec : trace → gset path → st → Prop :=
  | fx_init D : dirs_ok D → fexec [] D init_st
  | fx_op tr D s E o s' r :
      fexec tr D s → nenv P sepc E → nop_ok P sepc o → os_good E o → fs_env D E →
      (∀ ev p, o ≠ NEvent ev p) →
      nstep sepc E s o = (s', r) → fexec (tr ++ [(o, r)]) D s'
  | fx_mkdir tr D D' p s E s' r :
      fexec tr D s → nenv P sepc E → reliable E → dirs_ok D' → fs_env D' E →
      p ∈ D' → D ⊆ D' → (∀ q, q ∈ D' → q ∉ D → p `prefix_of` q) →
      p ∉ D → ¬ touched tr p →
      nstep sepc E s (NEvent (Create P) p) = (s', r) → fexec (tr ++ [(NEvent (Create P) p, r)]) D' s'
  | fx_rmdir tr D D' p s E s' r :
      fexec tr D s → nenv P sepc E → reliable E → gpath sepc p →
      (∀ q, q ∈ D' ↔ q ∈ D ∧ ¬ p `prefix_of` q) →
      nstep sepc E s (NEvent (Remove P) p) = (s', r) → fexec (tr ++ [(NEvent (Remove P) p, r)]) D' s'.
End spec.
