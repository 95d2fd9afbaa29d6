(** * SpecStopNil: histories in which Stop(nil) is called as well *)
From Verif Require Import Base Event Watchpoint Paths PathsFacts Loop Node NonRec Rec SpecTree SpecNonRec SpecRec.
Local Open Scope N_scope.

(** As [nexec] and [rexec], with any number of calls Stop(nil) at any time, which the
    trace does not mention. *)
Inductive nexec0 (P : platform) (sepc : ascii) : list (nop * result) → st → Prop :=
  | n0_init : nexec0 P sepc [] init_st
  | n0_step tr s E o s' r :
      nexec0 P sepc tr s → nenv P sepc E → nop_ok P sepc o → nstep sepc E s o = (s', r) → nexec0 P sepc (tr ++ [(o, r)]) s'
  | n0_stop tr s E : nexec0 P sepc tr s → nenv P sepc E → nexec0 P sepc tr (nr_Stop E s KNil).
Inductive rexec0 (P : platform) (sepc : ascii) (w : bool) (isvol : str → Prop) : list (nop * result) → st → Prop :=
  | r0_init : rexec0 P sepc w isvol [] init_st
  | r0_step tr s E o s' r :
      rexec0 P sepc w isvol tr s → renv P sepc w isvol E → rop_ok P sepc w isvol o → rstep sepc w E s o = (s', r) →
      st_panic s' = false → rexec0 P sepc w isvol (tr ++ [(o, r)]) s'
  | r0_stop tr s E :
      rexec0 P sepc w isvol tr s → renv P sepc w isvol E → rexec0 P sepc w isvol tr (rec_Stop E s KNil).
