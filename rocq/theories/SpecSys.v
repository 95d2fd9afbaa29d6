(** * Specification vocabulary for C76 (Sys and String of events). *)
From Verif Require Import Base Event Paths Clean EventSys.
From Verif Require Inotify SpecInotify Fsev.
Local Open Scope N_scope.

(** ** What the documentation of EventInfo says of Sys (/repo/event.go:58-107) *)
Definition doc_fsevents (v : sysval) : Prop := ∃ p i f, v = SFSEvent p i f.
Definition doc_inotify (v : sysval) : Prop := ∃ wd m c l, v = SInotify wd m c l.
Definition doc_kqueue (v : sysval) : Prop := ∃ fd f, v = SKevent fd f.
Definition doc_readdcw (v : sysval) : Prop := v = SNil.

(** ** Renames on Linux *)
(** The batches the watcher reads, each with the table of descriptors at that time. *)
Definition batches : Type := list (gmap Z Inotify.watched * list Inotify.raw).
Definition records (bs : batches) : list Inotify.raw := concat bs.*2.
(** Everything sent to the tree, in order. *)
Definition all_sent (bs : batches) : list Inotify.ievent := bs ≫= λ x, Inotify.sent x.1 x.2.
(** What a channel gets that asked for InMovedFrom and InMovedTo everywhere. *)
Definition move_event (e : Inotify.ievent) : Prop := Inotify.ie_event e = Inotify.InMovedFrom ∨ Inotify.ie_event e = Inotify.InMovedTo.
#[global] Instance move_event_dec e : Decision (move_event e).
Proof. unfold move_event. apply _. Defined.
Definition moves_seen (bs : batches) : list Inotify.ievent := filter move_event (all_sent bs).
(** Of the records of a kind (source or destination of a rename) with a given cookie. *)
Definition of_move (x k : N) (r : Inotify.raw) : Prop := Inotify.r_mask r .& x ≠ 0 ∧ Inotify.r_cookie r = k.
#[global] Instance of_move_dec x k r : Decision (of_move x k r).
Proof. unfold of_move. apply _. Defined.
(** What the kernel promises: a record has one event bit, and flags that
    are none of the package's own bits; records of renames name an entry; no two renames have the same cookie. *)
Record kernel_moves (l : list Inotify.raw) : Prop := {
  km_one : ∀ r, r ∈ l → Inotify.r_mask r .& 0xfff ≠ 0 → ∃ i, Inotify.r_mask r .& 0xfff = 2 ^ i;
  km_bits : ∀ r, r ∈ l → disj_ev (Inotify.r_mask r) (All linux);
  km_name : ∀ r, r ∈ l → Inotify.r_mask r .& (Inotify.InMovedFrom .| Inotify.InMovedTo) ≠ 0 → Inotify.r_name r ≠ [];
  km_cookie : ∀ x k, x = Inotify.InMovedFrom ∨ x = Inotify.InMovedTo → k ≠ 0 → (length (filter (of_move x k) l) ≤ 1)%nat;
}.
(** The tables occur in histories of the watcher. *)
Definition real_tables (bs : batches) : Prop := ∀ m rs, (m, rs) ∈ bs → ∃ tr s, SpecInotify.iexec tr s ∧ Inotify.i_m s = m.
(** A record of kind [x] with cookie [k] came for the path [p], in a directory registered for [x]. *)
Definition half (bs : batches) (x k : N) (p : str) : Prop :=
  ∃ m rs r w, (m, rs) ∈ bs ∧ r ∈ rs ∧ of_move x k r ∧ Inotify.r_mask r .& (Inotify.IN_IGNORED .| Inotify.IN_Q_OVERFLOW) = 0 ∧
    m !! Inotify.r_wd r = Some w ∧ incl_ev x (Inotify.w_mask w) ∧ p = Inotify.fjoin (Inotify.w_path w) (Inotify.r_name r).
