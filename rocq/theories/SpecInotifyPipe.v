(** * SpecInotifyPipe: what is said about the runs of the inotify goroutines *)
From Verif Require Import Base Event Paths Clean Inotify SpecInotify InotifyPipe.
Local Open Scope N_scope.

(** The records the kernel has queued; the batches read; the events sent of batch [k]. *)
Definition queued (ls : list plab) : list raw :=
  flat_map (λ l, match l with
    | PBegin _ _ rs | PReport _ _ _ _ _ _ rs | PLost rs | PGone _ rs => rs
    | _ => []
    end) ls.
Definition batches (ls : list plab) : list (list raw) :=
  omap (λ l, match l with PRead _ es => Some es | _ => None end) ls.
Definition sends (k : nat) (ls : list plab) : list ievent :=
  omap (λ l, match l with PSent j e => if decide (j = k) then Some e else None | _ => None end) ls.
(** The calls in the order of their system calls, with what they return, and the files
    that went. *)
Definition calls (ls : list plab) : itrace :=
  omap (λ l, match l with
    | PBegin E o _ => Some (E, o, true)
    | PFail E o => Some (E, o, false)
    | PGone f _ => Some (IEnv true None id, IGone f, true)
    | _ => None
    end) ls.
(** Nothing is left to do. *)
Definition idle (s : pst) : Prop :=
  p_q s = [] ∧ p_loop s = QPoll ∧ Forall (λ c, c = QWait) (p_cons s).
(** In [ls] no call withdraws the watch on [p], and none asks for it without [x]. *)
Definition keeps (ls : list plab) (p : str) (x : N) : Prop :=
  ∀ E o rs, PBegin E o rs ∈ ls → o ≠ IUnwatch p ∧ ∀ e, o = IWatch p e → incl_ev x e.
(** The name under which something that happens to [name] in [p] is reported. *)
Definition named (p name : str) : str := match name with [] => p | nm => fjoin p nm end.
