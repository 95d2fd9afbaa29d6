(** * SpecReaddcw: what the Windows watcher must ask for and forward *)
From Verif Require Import Base Event Watchpoint Readdcw.
Local Open Scope N_scope.

(** ** What is asked of the OS *)
(** The native filters implied by each event that can be requested. *)
Definition implied : list (N * N) := [
  (Create readdcw, FileNotifyChangeFileName); (Remove readdcw, FileNotifyChangeFileName); (Rename readdcw, FileNotifyChangeFileName);
  (Write readdcw, FileNotifyChangeAttributes); (Write readdcw, FileNotifyChangeSize);
  (Write readdcw, FileNotifyChangeCreation); (Write readdcw, FileNotifyChangeSecurity);
  (FileNotifyChangeFileName, FileNotifyChangeFileName); (FileNotifyChangeDirName, FileNotifyChangeDirName);
  (FileNotifyChangeAttributes, FileNotifyChangeAttributes); (FileNotifyChangeSize, FileNotifyChangeSize);
  (FileNotifyChangeLastWrite, FileNotifyChangeLastWrite); (FileNotifyChangeLastAccess, FileNotifyChangeLastAccess);
  (FileNotifyChangeCreation, FileNotifyChangeCreation); (FileNotifyChangeSecurity, FileNotifyChangeSecurity)].
Definition native_bit (e i : N) : Prop := ∃ r f, (r, f) ∈ implied ∧ e .& r ≠ 0 ∧ has f i.
(** An event set that can be requested: the four generic events and the eight filters. *)
Definition requestable (e : N) : Prop := ∀ i, has e i →
  has (Create readdcw .| Remove readdcw .| Write readdcw .| Rename readdcw .|
       FileNotifyChangeFileName .| FileNotifyChangeDirName .| FileNotifyChangeAttributes .| FileNotifyChangeSize .|
       FileNotifyChangeLastWrite .| FileNotifyChangeLastAccess .| FileNotifyChangeCreation .| FileNotifyChangeSecurity) i.
(** The handles a directory watched for [e] needs: one for files, unless only directory
    names are asked for; one for directories, if directory names, Create or Remove are. *)
Definition handles (e : N) (isrec : bool) (l : list (N * bool)) : Prop :=
  ∃ file dir, l = file ++ dir ∧
    (if decide (e .&^ FileNotifyChangeDirName = 0) then file = []
     else ∃ f, file = [(f, isrec)] ∧ ∀ i, has f i ↔ native_bit (e .&^ FileNotifyChangeDirName) i) ∧
    dir = if decide (e .& (FileNotifyChangeDirName .| Create readdcw .| Remove readdcw) = 0) then [] else [(FileNotifyChangeDirName, isrec)].

(** ** What is forwarded *)
(** The generic and the native event of each action. *)
Definition actions : list (N * (N * N)) := [
  (FILE_ACTION_ADDED, (Create readdcw, FileActionAdded)); (FILE_ACTION_REMOVED, (Remove readdcw, FileActionRemoved));
  (FILE_ACTION_MODIFIED, (Write readdcw, FileActionModified));
  (FILE_ACTION_RENAMED_OLD_NAME, (Rename readdcw, FileActionRenamedOldName));
  (FILE_ACTION_RENAMED_NEW_NAME, (Rename readdcw, FileActionRenamedNewName))].
(** The native filter [g] covers the action: a modification is covered by any filter
    other than the two for names, the other actions by the filter for the names of
    directories or of files. *)
Definition covers (g action : N) (isdir : bool) : Prop :=
  if decide (action = FILE_ACTION_MODIFIED)
  then g .& (FileNotifyChangeAttributes .| FileNotifyChangeSize .| FileNotifyChangeLastWrite .|
             FileNotifyChangeLastAccess .| FileNotifyChangeCreation .| FileNotifyChangeSecurity) ≠ 0
  else g .& (if isdir then FileNotifyChangeDirName else FileNotifyChangeFileName) ≠ 0.

Global Instance covers_dec g action isdir : Decision (covers g action isdir).
Proof. unfold covers. destruct (decide (action = FILE_ACTION_MODIFIED)); apply _. Defined.
(** How many of the values sent match the set [g] ([join] and [stat] being filepath.Join
    and os.Stat). *)
Definition offers (join : str → str → str) (stat : str → option bool) (g : N) (l : list rdevent) : nat :=
  length (filter (λ ev, matches readdcw g (eventmask readdcw (rd_info join stat ev) 0) = true) l).

(** ** The life of a watch *)
Global Instance pc_eq_dec : EqDecision pc.
Proof. solve_decision. Defined.
(** What each directory is to be watched for after a history of requests. *)
Definition req_path (q : rreq) : str := match q with QWatch p _ _ | QRewatch p _ _ _ | QUnwatch p => p end.
Definition want1 (W : str → option (N * bool)) (l : rlabel) : str → option (N * bool) := λ p,
  match l with
  | LReq q _ _ true =>
      if decide (p = req_path q) then
        match q with QWatch _ e r => Some (e, r) | QRewatch _ _ new r => Some (new, r) | QUnwatch _ => None end
      else W p
  | _ => W p
  end.
Definition want (tr : list rlabel) : str → option (N * bool) := foldl want1 (λ _, None) tr.

(** An open handle for the directory [p], with the filter and kind given to the OS. *)
Definition open_handle (s : rstate) (p : str) (x : N * bool) : Prop :=
  ∃ g gr wd, rs_grips s !! g = Some gr ∧ g_open gr = true ∧ rs_wds s !! g_parent gr = Some wd ∧ w_path wd = p ∧
    x = (rd_encode (g_filter gr), g_rec gr).
(** A grip of the entry of the table for the directory [p]. *)
Definition current (s : rstate) (p : str) (g : nat) : Prop :=
  ∃ gr, rs_grips s !! g = Some gr ∧ rs_tab s !! p = Some (g_parent gr).
(** A completion for the directory [p] is waiting or being processed. *)
Definition completion (s : rstate) (p : str) : Prop :=
  ∃ g, current s p g ∧ (g ∈ (rs_queue s).*1 ∨ rs_pc s = PRead g ∨ rs_pc s = PState g).
(** An operation is in progress for the directory [p]. *)
Definition in_progress (s : rstate) (p : str) : Prop :=
  ∃ i wd, rs_tab s !! p = Some i ∧ rs_wds s !! i = Some wd ∧ w_filter wd .& onlyMachineStates ≠ 0.

(** Orderly executions: the OS refuses nothing; a request for a directory does not fall
    between the loop's reading again for that directory and its looking at the state; a
    directory is watched only when it is not in the table; a Rewatch names the current
    set, and asks for more than the names of directories. *)
Definition orderly_label (tr : list rlabel) (s : rstate) (l : rlabel) : Prop :=
  match l with
  | LReq q ok0 ok1 _ =>
      (∀ g gr wd, rs_pc s = PState g → rs_grips s !! g = Some gr → rs_wds s !! g_parent gr = Some wd → w_path wd ≠ req_path q) ∧
      match q with
      | QWatch p e r => ok0 = true ∧ ok1 = true ∧ requestable e ∧ e ≠ 0 ∧ rs_tab s !! p = None
      | QRewatch p old new r => ok0 = true ∧ requestable new ∧ new .&^ FileNotifyChangeDirName ≠ 0 ∧
          ∀ e k, want tr p = Some (e, k) → old = e
      | QUnwatch p => ok1 = true
      end
  | LRead _ ok => ok = true
  | LState _ ok0 ok1 => ok0 = true ∧ ok1 = true
  | LData _ _ | LTake _ _ => True
  end.
Inductive rdorderly : list rlabel → rstate → Prop :=
  | rdorderly_init : rdorderly [] rs_init
  | rdorderly_step tr s l s' : rdorderly tr s → orderly_label tr s l → rdstep s l s' → rdorderly (tr ++ [l]) s'.

(** The set [e] was asked for the directory [p]. *)
Definition asked (tr : list rlabel) (p : str) (e : N) : Prop :=
  ∃ ok0 ok1 res r, LReq (QWatch p e r) ok0 ok1 res ∈ tr ∨ ∃ old, LReq (QRewatch p old e r) ok0 ok1 res ∈ tr.
(** The directory a grip belongs to. *)
Definition grip_of (s : rstate) (p : str) (g : nat) : Prop :=
  ∃ gr wd, rs_grips s !! g = Some gr ∧ rs_wds s !! g_parent gr = Some wd ∧ w_path wd = p.
(** A read or a completion is outstanding for the directory [p], other than one that the
    loop has taken and read again for. *)
Definition outstanding (s : rstate) (p : str) : Prop :=
  ∃ g, current s p g ∧ ((∃ r, r ∈ rs_reads s ∧ r_grip r = g) ∨ g ∈ (rs_queue s).*1 ∨ rs_pc s = PRead g).
