(** * SpecLinuxConc: what is said about the runs of tree and inotify watcher together *)
From Verif Require Import Base Event Watchpoint Paths PathsFacts Loop Node NonRec SpecNonRec SpecNonRecOS Clean CleanFacts Inotify SpecInotify
  InotifyPipe SpecInotifyPipe TreeConc SpecTreeConc SpecTreeDeliver LinuxConc.
Local Open Scope N_scope.

(** The tree has clean absolute paths watched, other than the root directory (Watch cleans
    its argument, and reading a directory gives no "." and ".."); and the kernel names
    entries by file names. *)
Definition clean_names (ls : list slab) : Prop :=
  (∀ E p e rs, SPipe (PBegin E (IWatch p e) rs) ∈ ls → ∃ d, d ≠ [] ∧ Forall proper d ∧ p = render slash d) ∧
  (∀ f ev isdir cookie name r rs, SPipe (PReport f ev isdir cookie name r rs) ∈ ls → name = [] ∨ proper name).
(** The files under the watched paths behave: a path watched again names the same existing
    file, and no two watched paths name the same file. *)
Definition steady (ls : list slab) : Prop := orderly (calls (pipes ls)).
(** File [f] is at path [p] and exists, and has a watch set for it. *)
Definition at_path (ls : list slab) (p : path) (f : positive) : Prop :=
  ifile (calls (pipes ls)) !! render slash p = Some (f, true).
(** The watcher has a watch set for [p]; whether the file is still there or not. *)
Definition has_watch (ls : list slab) (p : path) : Prop :=
  ∃ f there, ifile (calls (pipes ls)) !! render slash p = Some (f, there).
(** Nothing is left to do. *)
Definition at_rest (c : cfg) (s : pst) : Prop := quiescent c ∧ SpecInotifyPipe.idle s.

(** ** A filesystem *)
(** A run during which the tree's ReadDir sees a filesystem with the directories [D]: what
    is there when a Watch or Stop has its effect or a directory event is processed.
    Directories (possibly with directories inside) come when their Create is processed, if
    nobody had asked to watch them before, and go when their Remove is processed; [tr] is
    the history of the tree so far. *)
Inductive frun : list slab → list (nop * result) → gset path → cfg → pst → Prop :=
  | frun_init D : dirs_ok slash D → frun [] [] D cfg0 pinit
  | frun_other ls tr D c s l c' s' :
      frun ls tr D c s → srun (ls ++ [l]) c' s' → c_st c' = c_st c →
      (∀ i o r, l ≠ STree (LCrit i o r)) → (∀ ei, l ≠ STree (LInt ei)) → frun (ls ++ [l]) tr D c' s'
  | frun_call ls tr D c s i o r E c' s' :
      frun ls tr D c s → srun (ls ++ [STree (LCrit i o r)]) c' s' →
      nenv linux slash E → os_good E o → fs_env slash D E → nstep slash E (c_st c) o = (c_st c', r) →
      frun (ls ++ [STree (LCrit i o r)]) (tr ++ [(o, r)]) D c' s'
  | frun_mkdir ls tr D D' p c s ei E c' s' :
      frun ls tr D c s → srun (ls ++ [STree (LInt ei)]) c' s' →
      ei_event ei = Create linux → ei_path ei = render slash p →
      nenv linux slash E → reliable E → dirs_ok slash D' → fs_env slash D' E →
      p ∈ D' → D ⊆ D' → (∀ q, q ∈ D' → q ∉ D → p `prefix_of` q) → p ∉ D → ¬ touched linux tr p →
      nr_internal E (c_st c) ei = c_st c' →
      frun (ls ++ [STree (LInt ei)]) (tr ++ [(NEvent (Create linux) p, ROk)]) D' c' s'
  | frun_rmdir ls tr D D' p c s ei E c' s' :
      frun ls tr D c s → srun (ls ++ [STree (LInt ei)]) c' s' →
      ei_event ei = Remove linux → ei_path ei = render slash p → gpath slash p →
      nenv linux slash E → reliable E → (∀ q, q ∈ D' ↔ q ∈ D ∧ ¬ p `prefix_of` q) →
      nr_internal E (c_st c) ei = c_st c' →
      frun (ls ++ [STree (LInt ei)]) (tr ++ [(NEvent (Remove linux) p, ROk)]) D' c' s'.
(** No creation of [q] or of a directory above is processed. *)
Definition not_created (ls : list slab) (q : path) : Prop :=
  ∀ ei p, STree (LInt ei) ∈ ls → ei_event ei = Create linux → ei_path ei = render slash p → ¬ p `prefix_of` q.
