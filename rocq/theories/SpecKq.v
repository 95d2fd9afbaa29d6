(** * SpecKq: the non-recursive tree and the kqueue or FEN watcher put together (C72)

    The calls the tree made to its watcher, with their results, are the calls in the
    watcher's history; between them the OS reports. *)
From Verif Require Import Base Event Watchpoint Paths PathsFacts Node NonRec SpecTree SpecOS Clean SpecClean CleanFacts Trigger SpecTrigger.
From Verif Require SpecNonRec SpecNonRecOS.
Local Open Scope N_scope.

(** A clean absolute path *)
Definition cleanp (p : str) : Prop := ∃ tp, Forall proper tp ∧ p = topath tp.
(** [q] is the path of an entry of the directory [p]. *)
Definition child (p q : str) : Prop := ∃ tp c, Forall proper tp ∧ proper c ∧ p = topath tp ∧ q = topath (tp ++ [c]).
(** The entries of [p] were listed: those that are not in the listing are not there. *)
Definition relisted (L : str → Prop) (p : str) (ls : list finfo) : str → Prop := λ q, q ∈ entries p ls ∨ (¬ child p q ∧ L q).

Section drives.
Context (T : trig) (ty : str → bool).
Definition names_ok (ls : list finfo) : Prop := Forall (λ fi, proper (fi_name fi)) ls.
(** A call fails because os.Stat does: nothing changes. *)
Definition absent (c : wcall) (ts : tstate) : Prop :=
  match c with
  | WWatch p e => ∃ A, tstep T ts (TWatch None A p e RErr) ts
  | WUnwatch p => ∃ A, tstep T ts (TUnwatch None A p RErr) ts
  | WRewatch p _ e => ∃ A A', tstep T ts (TRewatch None A A' p e RErr) ts
  | _ => False
  end.
(** [kdrives log L r ts]: the tree has made the calls in [log]; in between the OS has
    reported things.  The OS refuses nothing but what does not exist; every path keeps its
    type [ty]; a file that goes away is noticed (as in [orderly]).  [L q]: [q] was in the
    last listing of its directory and has not been reported gone since.  [r]: what the paths
    are watched for; [ts]: the state of the watcher. *)
Inductive kdrives : wlog → (str → Prop) → roles → tstate → Prop :=
  | kd_init : kdrives [] (λ _, False) no_roles ts_init
  | kd_absent log L r ts c : kdrives log L r ts → absent c ts → kdrives (log ++ [(c, false)]) L r ts
  | kd_watch log L r ts A p e ls res ts' : kdrives log L r ts → willing A → e ≠ 0 → u32 e → cleanp p → listing ty A p ls → names_ok ls →
      tstep T ts (TWatch (Some (ty p)) A p e res) ts' →
      kdrives (log ++ [(WWatch p e, bool_decide (res = ROk))]) (relisted L p ls) (role_watch r p ls e) ts'
  | kd_unwatch log L r ts A p ls res ts' : kdrives log L r ts → willing A → cleanp p → listing ty A p ls → names_ok ls →
      tstep T ts (TUnwatch (Some (ty p)) A p res) ts' →
      kdrives (log ++ [(WUnwatch p, bool_decide (res = ROk))]) (relisted L p ls) (role_unwatch r p ls) ts'
  | kd_rewatch log L r ts A A' p old e ls ls' res ts' : kdrives log L r ts → willing A → willing A' → e ≠ 0 → u32 e → cleanp p →
      listing ty A p ls → names_ok ls → listing ty A' p ls' → names_ok ls' → direct r p ≠ 0 →
      tstep T ts (TRewatch (Some (ty p)) A A' p e res) ts' →
      kdrives (log ++ [(WRewatch p old e, bool_decide (res = ROk))]) (relisted L p ls') (role_watch (role_unwatch r p ls) p ls' e) ts'
  | kd_unknown log L r ts st A ord k ge evn ts' : kdrives log L r ts → willing A → t_Watched T ts k = None →
      tstep T ts (TEvent st A ord k ge evn) ts' → kdrives log L r ts'
  | kd_gone log L r ts st A ord p w ge evn ts' : kdrives log L r ts → willing A → tw_at ts p = Some w →
      ge .& (t_rename T .| t_remove T) ≠ 0 → noticed T w ge →
      tstep T ts (TEvent st A ord (ident_of T w) ge evn) ts' →
      let gone q := q = p ∨ (ty p = true ∧ ge .& t_rename T ≠ 0 ∧ below p q) in
      kdrives log (λ q, ¬ gone q ∧ L q) (role_gone r gone) ts'
  | kd_event log L r ts A ord p w ls ge evn ts' : kdrives log L r ts → willing A → tw_at ts p = Some w →
      ge .& (t_rename T .| t_remove T) = 0 → ¬ (ty p = true ∧ ge .& t_write T ≠ 0) → listing ty A p ls →
      tstep T ts (TEvent (Some (ty p)) A ord (ident_of T w) ge evn) ts' → kdrives log L r ts'
  | kd_rescan log L r ts A ord p w ls ge evn ts' : kdrives log L r ts → willing A → tw_at ts p = Some w →
      ge .& (t_rename T .| t_remove T) = 0 → ty p = true → ge .& t_write T ≠ 0 → cleanp p → listing ty A p ls → names_ok ls →
      tstep T ts (TEvent (Some (ty p)) A ord (ident_of T w) ge evn) ts' →
      kdrives log (relisted L p ls) (role_rescan r p ls) ts'.
End drives.

(** The whole system: the tree after history [tr], the watcher after the calls this made. *)
Record kq_system (T : trig) (ty : str → bool) (tr : list (SpecNonRec.nop * result)) (s : st) (L : str → Prop) (r : roles) (ts : tstate) : Prop := {
  ks_drives : kdrives T ty (st_log s) L r ts;
  ks_tree : SpecNonRecOS.nexec_where (t_plat T) slash SpecNonRecOS.os_good tr s;
  ks_nofail : SpecNonRec.no_failure tr;
}.
(** The native reports events stand for: themselves, or their counterparts. *)
Definition stands (T : trig) : list (N * N) := counterpart T ++ ((λ x, (x, x)) <$> natives T).
(** What the watcher hands to the tree (/repo/event_trigger.go:10-23) *)
Definition te_info (e : tevent) : event_info := EI (te_e e) (te_p e) (Some (te_dir e)) fTypeUnknown.
