(** * SpecWin: the Windows watcher as driven by the tree, and what a record of the OS leads to *)
From Verif Require Import Base Event Watchpoint Paths PathsFacts Node SpecTree Rec SpecNonRec SpecOS SpecRec RecRun Readdcw SpecReaddcw.
Local Open Scope N_scope.

(** ** The calls of the tree as requests to the watcher *)
Definition loop_label (l : rlabel) : Prop := ∀ q ok0 ok1 r, l ≠ LReq q ok0 ok1 r.
(** A call that succeeds (/repo/watcher_readdcw.go:284-292, 455-471, 510-518).  Between the
    two halves of a RecursiveRewatch that moves a watch the loop may run. *)
Inductive served : wcall → list rlabel → Prop :=
  | sv_watch p e a b : served (WWatch p e) [LReq (QWatch p e false) a b true]
  | sv_recwatch p e a b : served (WRecWatch p e) [LReq (QWatch p e true) a b true]
  | sv_rewatch p old new a b : served (WRewatch p old new) [LReq (QRewatch p old new false) a b true]
  | sv_unwatch p a b : served (WUnwatch p) [LReq (QUnwatch p) a b true]
  | sv_recunwatch p a b : served (WRecUnwatch p) [LReq (QUnwatch p) a b true]
  | sv_same p old new a b : served (WRecRewatch p p old new) [LReq (QRewatch p old new true) a b true]
  | sv_move p q old new a b l c d : p ≠ q → Forall loop_label l →
      served (WRecRewatch p q old new) (LReq (QUnwatch p) a b true :: l ++ [LReq (QWatch q new true) c d true]).
(** The requests of an execution of the watcher are those of the tree, which all succeed. *)
Inductive wdrives : wlog → list rlabel → Prop :=
  | wd_nil : wdrives [] []
  | wd_loop log rtr l : wdrives log rtr → loop_label l → wdrives log (rtr ++ [l])
  | wd_call log rtr c l : wdrives log rtr → served c l → wdrives (log ++ [(c, true)]) (rtr ++ l).

(** ** Records *)
(** The name in a record is relative to the directory of the handle: a\b. *)
Definition relname (r : path) : str := tail (render backslash r).
(** The handle [g] is open and belongs to the directory [p]; the OS was asked for the names
    of directories only, or for something else. *)
Definition handle (rs : rstate) (p : str) (g : nat) (isdir : bool) : Prop :=
  ∃ gr wd, rs_grips rs !! g = Some gr ∧ g_open gr = true ∧ rs_wds rs !! g_parent gr = Some wd ∧ w_path wd = p ∧
    isdir = bool_decide (rd_encode (g_filter gr) = FileNotifyChangeDirName).
(** What the loop sends for a record of a completion of the handle. *)
Definition record_sent (rs : rstate) (g : nat) (x : fninfo) : list rdevent :=
  match rs_grips rs !! g with
  | Some gr => match rs_wds rs !! g_parent gr with Some wd => send1 (w_path wd) (g_filter gr) x | None => [] end
  | None => []
  end.
(** How often channel [n] is offered the event [v] by the tree in state [s] when it is
    given these values. *)
Definition wheard (E : env) (s : st) (join : str → str → str) (stat : str → option bool) (l : list rdevent) (n : positive) (v : N) : nat :=
  foldr Nat.add 0%nat ((λ ev, rec_offered E s (rd_info join stat ev) (KUser n)) <$> filter (λ ev, re_e ev = v) l).
(** How often it must be offered the native event of action [a] in [d]\[c], given by a
    handle for the names of directories or by another one: as often as the filter of
    names demands; for a modification, once for every registration on the way that asks
    for a filter other than the two for names (see C30). *)
Definition native_deliveries (g : path → positive → N) (n : positive) (a : N) (isdir : bool) (d : path) (c : str) : nat :=
  if decide (a = FILE_ACTION_MODIFIED)
  then foldr Nat.add 0%nat ((λ k, if decide (g (take k (d ++ [c])) n .& fileNotifyChangeModified = 0)%N then 0 else 1)%nat <$> seq 0 (length d + 2))
  else deliveries readdcw g n (if isdir then FileNotifyChangeDirName else FileNotifyChangeFileName) d c.

(** ** What the OS must be asked *)
(** The native filters that report what an event stands for: those of SpecReaddcw, and
    Create and Remove of directories. *)
Definition reporting : list (N * N) :=
  implied ++ [(Create readdcw, FileNotifyChangeDirName); (Remove readdcw, FileNotifyChangeDirName)].
