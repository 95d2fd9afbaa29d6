(** * SpecStub: the library without a working watcher *)
From Verif Require Import Base Event Watchpoint Paths PathsFacts Loop Node NonRec Rec Clean SpecClean SpecTree SpecNonRec SpecRec Api SpecApi.
Local Open Scope N_scope.

(** Platforms without an implementation (/repo/watcher_notimplemented.go:13-15), and
    kqueue or FEN when the OS gives no queue (/repo/watcher_trigger.go:109-112): every
    call of the watcher returns the error (/repo/watcher_stub.go:10-13).  A watcherStub
    has no RecursiveWatch, so the tree is the non-recursive one (/repo/tree.go:15-22). *)
Record stub_env (P : platform) (E : env) : Prop := {
  se_env : nenv P slash E;
  se_refuses : ∀ log c, e_W E log c = false;
}.
(** Paths without "...".  There are no events to process. *)
Definition plain_call (P : platform) (o : acall) : Prop :=
  acall_ok P o ∧
  match o with
  | AWatch _ _ p _ _ => ∀ x, p ≠ x ++ b "..."
  | AStop _ => True
  | AEvent _ _ => False
  end.
Definition stub_exec (P : platform) (ok : acall → Prop) : list (acall * outcome) → st → Prop :=
  aexec nr_api (stub_env P) ok (λ _, True).
