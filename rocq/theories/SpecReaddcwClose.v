(** * SpecReaddcwClose: executions of the Windows watcher around a call of Close *)
From Verif Require Import Base Event Readdcw SpecReaddcw ReaddcwClose.

(** A call of Watch. *)
Definition is_watch (l : clabel) : bool :=
  match l with KStep (LReq (QWatch _ _ _) _ _ _) | KNoPort _ _ _ => true | _ => false end.
Definition no_watch (tr : list clabel) : Prop := Forall (λ l, is_watch l = false) tr.
(** A step of a caller other than the one of Close. *)
Definition is_request (l : clabel) : bool :=
  match l with KStep (LReq _ _ _ _) | KNoPort _ _ _ | KCloseNop => true | _ => false end.
(** Close is called in the state [s0], returns after waiting in the state [s], and nobody
    calls Watch meanwhile. *)
Definition closed_between (s0 s : cstate) : Prop :=
  ∃ order err s1 tr err' s2,
    cstep s0 (KClose order err) s1 ∧ csteps s1 tr s2 ∧ no_watch tr ∧ cstep s2 (KRet err') s.
(** A read is pending, or a completion is waiting or being served, for the directory [p]. *)
Definition busy (s : rstate) (p : str) : Prop :=
  ∃ g gr wd, ((∃ r, r ∈ rs_reads s ∧ r_grip r = g) ∨ g ∈ (rs_queue s).*1 ∨ rs_pc s = PRead g ∨ rs_pc s = PState g) ∧
    rs_grips s !! g = Some gr ∧ rs_wds s !! g_parent gr = Some wd ∧ w_path wd = p.
(** An orderly history (SpecReaddcw.v) without Close, at the end of which Close is called. *)
Definition close_called (tr : list rlabel) (err : bool) (s : cstate) : Prop :=
  ∃ s0 order, cexec (KStep <$> tr) s0 ∧ rdorderly tr (c_rs s0) ∧ cstep s0 (KClose order err) s.
(** Whatever is done from now on, the directory [p] is not watched: Watch returns nil without
    asking the OS for anything, Rewatch and Unwatch are refused, nothing is ever outstanding
    for it and nothing about it is sent. *)
Definition dead_forever (s : cstate) (p : str) : Prop :=
  ∀ tr s', csteps s tr s' →
    (∀ e k ok0 ok1 res s2, e .&^ known_events = 0%N → cstep s' (KStep (LReq (QWatch p e k) ok0 ok1 res)) s2 →
       res = true ∧ rs_reads (c_rs s2) = rs_reads (c_rs s') ∧ rs_grips (c_rs s2) = rs_grips (c_rs s')) ∧
    (∀ q ok0 ok1 res s2, q = QUnwatch p ∨ (∃ old new k, q = QRewatch p old new k) →
       cstep s' (KStep (LReq q ok0 ok1 res)) s2 → res = false) ∧
    ¬ busy (c_rs s') p ∧
    ∃ out, rs_sent (c_rs s') = rs_sent (c_rs s) ++ out ∧ Forall (λ ev, re_dir ev ≠ p) out.
