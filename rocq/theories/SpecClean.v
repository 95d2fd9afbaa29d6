(** * SpecClean: what a path denotes *)
From Verif Require Import Base Event Paths PathsFacts Clean.

(** The pieces [cs], looked up from directory [d], lead (through any number of
    symlinks) to the physical path [q]. *)
Definition resolves (fs : fsys) (d : path) (cs : list str) (q : path) : Prop := ∃ n, kres fs n d cs = Some q.
(** A physical path: it exists, it and everything above it is not a symlink, all its
    components are proper names. *)
Definition real (fs : fsys) (q : path) : Prop :=
  (∃ k, fs !! q = Some k ∧ ∀ s, k ≠ KLink s) ∧
  (∀ q', q' `prefix_of` q → q' ≠ q → fs !! q' = Some KDir) ∧
  Forall (λ c, c ≠ [] ∧ c ≠ dot ∧ c ≠ dotdot ∧ slash ∉ c) q.
(** Its text; the root directory is "/". *)
Definition topath (q : path) : str := render slash (match q with [] => [[]] | _ => q end).

(** A filesystem: there is a root directory; symlinks have a target. *)
Definition fs_ok (fs : fsys) : Prop :=
  fs !! [] = Some KDir ∧ ∀ d s, fs !! d = Some (KLink s) → s ≠ [].
(** The first step of a relative symlink in the root directory is neither missing
    nor a symlink again. *)
Definition root_links_ok (fs : fsys) : Prop :=
  ∀ x s, fs !! [x] = Some (KLink s) → isabs s = false →
    ∃ k, look fs [] (hd [] (splits s)) = Some k ∧ ∀ s', k ≠ KLink s'.
