(** * SpecMac: the macOS watcher as driven by the tree, and what a report of the OS leads to *)
From Verif Require Import Base Event Watchpoint Paths PathsFacts Node SpecTree Rec SpecNonRec SpecOS SpecRec Fsev SpecFsev.
Local Open Scope N_scope.

(** The calls the tree makes, each followed by its outcome, and the batches that the OS
    hands to the streams in between lead the watcher to table [m].  Streams can always
    be started. *)
Inductive mac_run : wlog → fstab → Prop :=
  | mr_nil : mac_run [] ∅
  | mr_call log m c m' err :
      mac_run log m → fs_call (λ _, true) m c = (m', err) → mac_run (log ++ [(c, bool_decide (err = None))]) m'
  | mr_batch log m p x evs :
      mac_run log m → m !! p = Some x → mac_run log (<[p := (fs_dispatch x (gostream evs)).1]> m).

(** A report is handed to every stream (FSEvents only does so for the streams above the
    file; the others ignore it anyway): what the watches send to the tree. *)
Definition sends (m : fstab) (ev : fsevent) : list (fsevent * N) :=
  map_to_list m ≫= λ px, (fs_dispatch px.2 (gostream [ev])).2.
(** As seen by the tree (/repo/event_fsevents.go:64-72). *)
Definition mac_info (o : fsevent * N) : event_info :=
  EI o.2 (fe_path o.1) (Some (negb (fe_flags o.1 .& FSEventsIsDir =? 0))) fTypeUnknown.
(** How often channel [n] is offered flag [j] of the report. *)
Definition heard (E : env) (s : st) (m : fstab) (ev : fsevent) (n : positive) (j : N) : nat :=
  foldr Nat.add 0%nat ((λ o, rec_offered E s (mac_info o) (KUser n)) <$> filter (λ o, o.2 = 2 ^ j) (sends m ev)).

(** An ordinary report about the entry [c] of directory [d]: no marker, no trouble. *)
Definition report (ev : fsevent) (d : path) (c : str) : Prop :=
  d ≠ [] ∧ clean d ∧ c ≠ [] ∧ comp_ok fslash c ∧ fe_path ev = render fslash (d ++ [c]) ∧ u32 (fe_flags ev) ∧
  fe_flags ev .& (FSEventsHistoryDone .| losses .| FSEventsEventIdsWrapped) = 0.
(** Flag [j] of the report passes the watch at or above the file: its stream is past the
    history and the flag is not taken for a repetition, given the last of Created and
    Removed that the watch remembers for the file. *)
Definition passes (m : fstab) (q : path) (ev : fsevent) (j : N) : Prop :=
  ∃ p r x, q = p ++ r ∧ m !! render fslash p = Some x ∧ fw_flushed x = true ∧
    has (strip1 (default 0 (fw_prev x !! tail (render fslash r))) (fe_flags ev)).2 j.
