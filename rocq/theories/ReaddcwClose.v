(** * ReaddcwClose: closing the Windows watcher (/repo/watcher_readdcw.go:550-573), with the
    completion port, the start and the end of the loop, as interleaved steps. *)
From Verif Require Import Base Event Readdcw.
Local Open Scope N_scope.

(** The goroutine that has called Close: none; it has released the lock and not yet posted
    (/repo/watcher_readdcw.go:566-568); it waits (:571).  The flag is the variable err: an
    error was returned when a handle was closed.  Simplification: one Close at a time. *)
Inductive closer := KNone | KPost (err : bool) | KWait (err : bool).
(** [c_start] is r.start, [c_port]: r.cph is valid, which is as long as the loop runs;
    [c_keys]: packets with the key stateCPClose in the queue of the port; [c_wg] the counter
    of the wait group. *)
Record cstate := CS { c_rs : rstate; c_start : bool; c_port : bool; c_keys : nat; c_wg : nat; c_closer : closer }.
Definition cs_init : cstate := CS rs_init false false 0 0 KNone.
Definition with_rs (s : cstate) (r : rstate) : cstate := CS r (c_start s) (c_port s) (c_keys s) (c_wg s) (c_closer s).
Definition with_closer (s : cstate) (k : closer) : cstate := CS (c_rs s) (c_start s) (c_port s) (c_keys s) (c_wg s) k.

(** The loop over the table in Close (/repo/watcher_readdcw.go:558-564), for one entry;
    [closeHandle] makes the handles invalid even if closing fails. *)
Definition close_entry (s : rstate) (i : nat) : rstate :=
  match rs_wds s !! i with
  | Some x => let x := with_filter x ((w_filter x .&^ onlyMachineStates) .| stateCPClose) in closeHandle (set_wd s i x) x
  | None => s
  end.
(** The entries in the order in which Go walks through the table. *)
Definition close_entries (s : rstate) (order : list nat) : rstate := foldl close_entry s order.

(** lazyinit (/repo/watcher_readdcw.go:327-341) is reached by a Watch for known events of a
    path that is not in the table. *)
Definition inits (s : rstate) (l : rlabel) : bool :=
  match l with
  | LReq (QWatch p e _) _ _ _ => (e .&^ known_events =? 0) && match rs_tab s !! p with Some _ => false | None => true end
  | _ => false
  end.
(** What the watcher can do without a port: the loop is not running, and nothing can be posted
    to the port. *)
Definition portless (l : rlabel) : Prop :=
  match l with
  | LReq (QUnwatch _) there ok _ => there = true ∨ ok = false
  | LReq _ _ _ _ => True
  | _ => False
  end.
(** What happens in a step: something of Readdcw.v; a Watch fails because there is no
    completion port (:332); Close is called and does its part under the lock, or finds
    nothing to do; it posts; the loop ends; Close returns after waiting, with this error or
    nil. *)
Inductive clabel :=
  | KStep (l : rlabel)
  | KNoPort (p : str) (e : N) (k : bool)
  | KClose (order : list nat) (err : bool)
  | KCloseNop
  | KPosted (ok : bool)
  | KExit
  | KRet (err : bool).
Inductive cstep (s : cstate) : clabel → cstate → Prop :=
  | k_step l r : rs_panic (c_rs s) = false → rdstep (c_rs s) l r → (c_port s = false → portless l) →
      cstep s (KStep l) (let new := inits (c_rs s) l && negb (c_port s) in CS r (c_start s || new) (c_port s || new) (c_keys s) (c_wg s) (c_closer s))
  | k_noport p e k : inits (c_rs s) (LReq (QWatch p e k) true true false) = true → c_port s = false → cstep s (KNoPort p e k) s
  (* :553-566 *)
  | k_nop : c_closer s = KNone → c_start s = false → cstep s KCloseNop s
  | k_close order err : c_closer s = KNone → c_start s = true → order ≡ₚ (map_to_list (rs_tab (c_rs s))).*2 →
      cstep s (KClose order err) (CS (close_entries (c_rs s) order) false (c_port s) (c_keys s) (c_wg s) (KPost err))
  (* :567-570: posting fails for certain if the port is invalid *)
  | k_post err : c_closer s = KPost err → c_port s = true →
      cstep s (KPosted true) (CS (c_rs s) (c_start s) (c_port s) (S (c_keys s)) (S (c_wg s)) (KWait err))
  | k_nopost err : c_closer s = KPost err →
      cstep s (KPosted false) (CS (c_rs s) (c_start s) (c_port s) (c_keys s) (S (c_wg s)) (if err then KWait err else KNone))
  (* :348-357: the packets still in the queue, and those of pending reads, go with the port *)
  | k_exit n m : c_port s = true → rs_pc (c_rs s) = PWait → c_keys s = S n → c_wg s = S m →
      cstep s KExit (CS (set_io (c_rs s) [] []) (c_start s) false 0 m (c_closer s))
  (* :571-572 *)
  | k_ret err : c_closer s = KWait err → c_wg s = 0%nat → cstep s (KRet err) (with_closer s KNone).
Inductive csteps : cstate → list clabel → cstate → Prop :=
  | csteps_nil s : csteps s [] s
  | csteps_snoc s tr s1 l s2 : csteps s tr s1 → cstep s1 l s2 → csteps s (tr ++ [l]) s2.
(** The executions of the program. *)
Definition cexec (tr : list clabel) (s : cstate) : Prop := csteps cs_init tr s.
