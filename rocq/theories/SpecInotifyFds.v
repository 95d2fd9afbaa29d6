(** * Specification vocabulary for C87 (the descriptors of the inotify watcher). *)
From Verif Require Import Base InotifyFds.
Local Open Scope Z_scope.

(** The library has [n] open, as a [k]. *)
Definition holds (s : fdst) (n : Z) (k : fkind) : Prop := f_tab s !! n = Some k ∧ k ≠ App.
(** The rest of the program has [n] open. *)
Definition theirs (s : fdst) (n : Z) : Prop := f_tab s !! n = Some App.
(** Everything the library has open. *)
Definition held (s : fdst) : gmap Z fkind := filter (λ x, x.2 ≠ App) (f_tab s).
(** The system call is made on a descriptor of the library, of the right kind; what is closed
    is open. *)
Definition rightful (c : fcall) : Prop :=
  match c with
  | FClose _ k => k = Some Ino ∨ k = Some Epo ∨ k = Some PipR ∨ k = Some PipW
  | FAdd _ ke _ k => ke = Some Epo ∧ (k = Some Ino ∨ k = Some PipR)
  | FIno _ k => k = Some Ino
  | FWait _ k => k = Some Epo
  | FWrite _ k => k = Some PipW
  end.
(** The library has exactly the four descriptors open: the inotify instance, the epoll
    instance, and the two ends of the pipe. *)
Definition four (s : fdst) : Prop := ∃ a e r w, held s = {[a := Ino; e := Epo; r := PipR; w := PipW]} ∧ NoDup [a; e; r; w].
(** How many descriptors of the rest of the program the library has closed. *)
Definition stolen (s : fdst) : nat :=
  length (List.filter (λ c, match c with FClose _ (Some App) => true | _ => false end) (f_log s)).
(** [s] is reached by some run. *)
Definition freach (pf : pipefail) (intr : bool) (s : fdst) : Prop := ∃ X os, (∀ n, n ∈ X → 0 ≤ n) ∧ fsteps pf intr (finit X) os s.
