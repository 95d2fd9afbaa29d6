(** * WinApi: the calls a program makes on Windows, with the arguments it gives *)
From Verif Require Import Base Event Watchpoint Paths PathsFacts Loop Node NonRec Rec Clean SpecTree SpecNonRec SpecRec Api WinPath.
Local Open Scope N_scope.

(** Watch, as [Api.api_Watch] with the recursive tree (/repo/tree_recursive.go:156-167); [o]
    is the OS during the call. *)
Definition win_Watch (E : env) (o : winos) (s : st) (p : str) (c : option positive) (events : list N) : st * outcome :=
  match c with
  | None => (s, OPanic)
  | Some n =>
      match events with
      | [] => (s, ORet ROk)
      | _ =>
          match wcleanpath o p with
          | inr e => (s, OBadPath e)
          | inl (q, isrec) =>
              let '(s, r) := rec_Watch E s q isrec (KUser n) (joinevents (e_plat E) events) in
              (s, ORet r)
          end
      end
  end.
(** A call of Watch, or of Stop for a channel that is not nil (/repo/notify.go:63-74). *)
Inductive wacall :=
  | WAWatch (o : winos) (p : str) (c : option positive) (events : list N)
  | WAStop (n : positive).
Definition wastep (E : env) (s : st) (o : wacall) : st * outcome :=
  match o with
  | WAWatch o p c events => win_Watch E o s p c events
  | WAStop n => (rec_Stop E s (KUser n), ORet ROk)
  end.
