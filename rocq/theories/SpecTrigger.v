(** * Specification vocabulary for C49-C52 (kqueue and FEN). *)
From Verif Require Import Base Event Paths Clean Trigger.
Local Open Scope N_scope.

(** ** Translation of events *)
(** The native event each generic event stands for. *)
Definition counterpart (T : trig) : list (N * N) :=
  [(Write (t_plat T), t_write T); (Rename (t_plat T), t_rename T); (Remove (t_plat T), t_remove T)].
(** New files show as writes to their directory. *)
Definition implied (T : trig) (dir : bool) : list (N * N) :=
  counterpart T ++ if dir then [(Create (t_plat T), t_write T)] else [].
(** FEN reports these whether or not they are requested, and they must not be. *)
Definition exceptions (T : trig) : N :=
  if t_fds T then 0 else FileDelete .| FileRenameTo .| FileRenameFrom .| Unmounted .| MountedOver.
(** Bit [i] is to be asked for when the events [e] are requested of a file or directory. *)
Definition native_bit (T : trig) (dir : bool) (e i : N) : Prop :=
  ¬ has (exceptions T) i ∧
  ((has e i ∧ ¬ has (All (t_plat T)) i) ∨ ∃ r f, (r, f) ∈ implied T dir ∧ e .& r ≠ 0 ∧ has f i).
Definition kq_natives : list N := [NoteDelete; NoteWrite; NoteExtend; NoteAttrib; NoteLink; NoteRename; NoteRevoke].
Definition fen_natives : list N :=
  [FileAccess; FileModified; FileAttrib; FileDelete; FileRenameTo; FileRenameFrom; FileTrunc; FileNoFollow; Unmounted; MountedOver].
Definition natives (T : trig) : list N := if t_fds T then kq_natives else fen_natives.
(** Event [x] is what the native report [o] is about. *)
Definition reported (T : trig) (o x : N) : Prop :=
  (x ∈ natives T ∧ o .& x ≠ 0) ∨ (∃ f, (x, f) ∈ counterpart T ∧ o .& f ≠ 0).

(** ** The table *)
(** What is in the table for a path, and what is registered with the OS for it. *)
Definition tw_at (s : tstate) (p : str) : option tw := ts_path s !! p ≫= λ i, ts_heap s !! i.
Definition reg_at (T : trig) (s : tstate) (p : str) : option N := tw_at s p ≫= λ w, ts_reg s !! ident_of T w.
(** The paths of the entries of a directory *)
Definition entries (p : str) (ls : list finfo) : list str := (λ fi, join p (fi_name fi)) <$> ls.
(** The OS refuses nothing. *)
Record willing (A : answers) : Prop := {
  wl_fd : fresh_fd A;
  wl_new : ∀ p, a_new A p = NewOk;
  wl_watch : ∀ p, a_watch A p = SOk;
  wl_unwatch : ∀ p, a_unwatch A p = SOk;
}.

(** What each path is watched for, directly and as a member of a directory. *)
Record roles := Roles { direct : str → N; member : str → N }.
Definition no_roles : roles := Roles (λ _, 0) (λ _, 0).
Definition orl (f : str → N) (ps : list str) (e : N) : str → N := λ q, if decide (q ∈ ps) then f q .| e else f q.
Definition clr (f : str → N) (ps : list str) : str → N := λ q, if decide (q ∈ ps) then 0 else f q.
Definition role_watch (r : roles) (p : str) (ls : list finfo) (e : N) : roles :=
  Roles (orl (direct r) [p] e) (orl (member r) (entries p ls) e).
Definition role_unwatch (r : roles) (p : str) (ls : list finfo) : roles :=
  Roles (clr (direct r) [p]) (clr (member r) (entries p ls)).
Definition role_rescan (r : roles) (p : str) (ls : list finfo) : roles :=
  Roles (direct r) (orl (member r) (entries p ls) (direct r p)).
(** [q] is below the directory [p]. *)
Definition below (p q : str) : Prop := ∃ x, q = p ++ slash :: x.
Lemma below_spec p q : take (length (p ++ [slash])) q = p ++ [slash] ↔ below p q.
Proof.
  split.
  - intros H. exists (drop (length (p ++ [slash])) q). rewrite <-(take_drop (length (p ++ [slash])) q) at 1. rewrite H, <-app_assoc. done.
  - intros [x ->]. change (slash :: x) with ([slash] ++ x). rewrite app_assoc. apply take_app.
Qed.
#[global] Instance below_dec p q : Decision (below p q).
Proof. destruct (decide (take (length (p ++ [slash])) q = p ++ [slash])) as [H|H]; [left|right]; by rewrite <-below_spec. Defined.
Definition role_gone (r : roles) (gone : str → Prop) `{∀ q, Decision (gone q)} : roles :=
  Roles (λ q, if decide (gone q) then 0 else direct r q) (λ q, if decide (gone q) then 0 else member r q).
(** Orderly histories, with what they ask for.  The OS refuses nothing; every path keeps
    its type [ty]; the tree asks for something; a file that goes away is noticed (something
    was requested that says so).  Strictly orderly: a directory reports writes only if it is
    watched directly. *)
Section orderly.
Context (T : trig) (ty : str → bool) (strict : bool).
Definition listing (A : answers) (p : str) (ls : list finfo) : Prop :=
  if ty p then a_ls A p = Some ls ∧ Forall (λ fi, fi_dir fi = ty (join p (fi_name fi))) ls else ls = [].
Definition noticed (w : tw) (ge : N) : Prop :=
  decode (t_nat2not T) ge (tw_e w) ≠ 0 ∨ (tw_dir w = true ∧ ge .& t_write T ≠ 0).
Inductive orderly : roles → tstate → Prop :=
  | ord_init : orderly no_roles ts_init
  | ord_watch r s A p e ls res s' : orderly r s → willing A → e ≠ 0 → listing A p ls →
      tstep T s (TWatch (Some (ty p)) A p e res) s' → orderly (role_watch r p ls e) s'
  | ord_unwatch r s A p ls res s' : orderly r s → willing A → listing A p ls →
      tstep T s (TUnwatch (Some (ty p)) A p res) s' → orderly (role_unwatch r p ls) s'
  | ord_rewatch r s A A' p e ls ls' res s' : orderly r s → willing A → willing A' → e ≠ 0 → listing A p ls → listing A' p ls' →
      direct r p ≠ 0 →
      tstep T s (TRewatch (Some (ty p)) A A' p e res) s' → orderly (role_watch (role_unwatch r p ls) p ls' e) s'
  | ord_unknown r s st A ord k ge evn s' : orderly r s → willing A → t_Watched T s k = None →
      tstep T s (TEvent st A ord k ge evn) s' → orderly r s'
  | ord_gone r s st A ord p w ge evn s' : orderly r s → willing A → tw_at s p = Some w →
      ge .& (t_rename T .| t_remove T) ≠ 0 → noticed w ge →
      tstep T s (TEvent st A ord (ident_of T w) ge evn) s' →
      orderly (role_gone r (λ q, q = p ∨ (ty p = true ∧ ge .& t_rename T ≠ 0 ∧ below p q))) s'
  | ord_event r s A ord p w ls ge evn s' : orderly r s → willing A → tw_at s p = Some w →
      ge .& (t_rename T .| t_remove T) = 0 →
      (strict = true → ty p = true → ge .& t_write T ≠ 0 → direct r p ≠ 0) → listing A p ls →
      tstep T s (TEvent (Some (ty p)) A ord (ident_of T w) ge evn) s' →
      orderly (if decide (ty p = true ∧ ge .& t_write T ≠ 0) then role_rescan r p ls else r) s'.
End orderly.

(** ** Rescans *)
(** What a rescan of the directory [d] finds out about an entry: it was watched already,
    it can be watched now, it is left alone (sockets, dangling links), it is gone, or
    watching it fails. *)
Inductive finding := Known | Found | Ignored | Gone | Failed.
Definition finding_of (T : trig) (A : answers) (known : bool) (q : str) : finding :=
  let reg := match a_watch A q with SOk => if known then Known else Found | SNotExist => Gone | SErr => Failed end in
  if known then reg
  else if t_fds T then match a_new A q with NewOk => reg | NewSkip => Ignored | NewNotExist => Gone | NewErr => Failed end
  else reg.
Definition scan_event (T : trig) (e : N) (d : str) (fi : finfo) (f : finding) : list tevent :=
  match f with
  | Found | Ignored => if decide (e .& Create (t_plat T) = 0) then [] else [TE (join d (fi_name fi)) (Create (t_plat T)) (fi_dir fi)]
  | Gone => if decide (e .& Remove (t_plat T) = 0) then [] else [TE (join d (fi_name fi)) (Remove (t_plat T)) (fi_dir fi)]
  | _ => []
  end.
Definition in_table (s : tstate) (q : str) : bool := bool_decide (is_Some (tw_at s q)).
(** The entries that are not in the table *)
Definition new_entries (s : tstate) (d : str) (ls : list finfo) : list finfo :=
  filter (λ fi, tw_at s (join d (fi_name fi)) = None) ls.
Definition direct_at (s : tstate) (q : str) : N := match tw_at s q with Some x => tw_eDir x | None => 0 end.
Definition member_at (s : tstate) (q : str) : N := match tw_at s q with Some x => tw_eNonDir x | None => 0 end.
