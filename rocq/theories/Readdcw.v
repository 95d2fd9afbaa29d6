(** * Readdcw: the watcher of /repo/watcher_readdcw.go (Windows).

    First the translation of events, then the watch table, the grips (file handles
    with an asynchronous read each) and the loop that serves the completions. *)
From Verif Require Import Base Event Paths Node.
Local Open Scope N_scope.

(** ** Constants *)
(** /repo/watcher_readdcw.go:29-33 *)
Definition stateRewatch : N := N.shiftl 1 28.
Definition stateUnwatch : N := N.shiftl 1 29.
Definition stateCPClose : N := N.shiftl 1 30.
(** /repo/watcher_readdcw.go:42-46 *)
Definition onlyNotifyChanges : N := 0x00000FFF.
Definition onlyNGlobalEvents : N := 0x0FF00000.
Definition onlyMachineStates : N := 0xF0000000.
(** FILE_ACTION_* of package syscall (the Win32 values, trusted). *)
Definition FILE_ACTION_ADDED : N := 1.
Definition FILE_ACTION_REMOVED : N := 2.
Definition FILE_ACTION_MODIFIED : N := 3.
Definition FILE_ACTION_RENAMED_OLD_NAME : N := 4.
Definition FILE_ACTION_RENAMED_NEW_NAME : N := 5.

(** ** Translation *)
Notation nonzero x := (negb (x =? 0)).
(** /repo/watcher_readdcw.go:134-153 *)
Definition rd_encode (filter : N) : N :=
  let e := filter .& (onlyNGlobalEvents .| onlyNotifyChanges) in
  if nonzero (e .& dirmarker) then FileNotifyChangeDirName
  else
    let e := if nonzero (e .& Create readdcw) then N.lxor e (Create readdcw) .| FileNotifyChangeFileName else e in
    let e := if nonzero (e .& Remove readdcw) then N.lxor e (Remove readdcw) .| FileNotifyChangeFileName else e in
    let e := if nonzero (e .& Write readdcw)
             then N.lxor e (Write readdcw) .| FileNotifyChangeAttributes .| FileNotifyChangeSize .|
                  FileNotifyChangeCreation .| FileNotifyChangeSecurity
             else e in
    if nonzero (e .& Rename readdcw) then N.lxor e (Rename readdcw) .| FileNotifyChangeFileName else e.
(** /repo/watcher_readdcw.go:601-612; the generic and the native event *)
Definition gensys (filter ge se : N) : N * N :=
  let isdir := nonzero (filter .& dirmarker) in
  let syse := if (isdir && nonzero (filter .& FileNotifyChangeDirName)) ||
                 (negb isdir && nonzero (filter .& FileNotifyChangeFileName)) ||
                 nonzero (filter .& fileNotifyChangeModified)
              then se else 0 in
  (if nonzero (filter .& ge) then ge else 0, syse).
(** /repo/watcher_readdcw.go:579-595 *)
Definition rd_decode (filter action : N) : N * N :=
  if action =? FILE_ACTION_ADDED then gensys filter (Create readdcw) FileActionAdded
  else if action =? FILE_ACTION_REMOVED then gensys filter (Remove readdcw) FileActionRemoved
  else if action =? FILE_ACTION_MODIFIED then gensys filter (Write readdcw) FileActionModified
  else if action =? FILE_ACTION_RENAMED_OLD_NAME then gensys filter (Rename readdcw) FileActionRenamedOldName
  else if action =? FILE_ACTION_RENAMED_NEW_NAME then gensys filter (Rename readdcw) FileActionRenamedNewName
  else (0, 0).
(** One element of the array of FILE_NOTIFY_INFORMATION: the action and the name
    (after conversion from UTF-16, see ReaddcwBuf.v). *)
Record fninfo := FN { fn_action : N; fn_name : str }.
(** The value sent on the channel: /repo/event_readdcw.go:97-104 with the directory for
    [pathw]; the filter and the action are not observable and are left out. *)
Record rdevent := RdEvent { re_dir : str; re_name : str; re_ftype : ftype; re_e : N }.
(** /repo/watcher_readdcw.go:430-437 *)
Definition rd_ftype (filter action : N) : ftype :=
  if action =? FILE_ACTION_MODIFIED then fTypeUnknown
  else if nonzero (filter .& dirmarker) then fTypeDirectory else fTypeFile.
(** The body of the loop in send (/repo/watcher_readdcw.go:426-451): what goes to the
    channel, in order. *)
Definition send1 (dir : str) (filter : N) (x : fninfo) : list rdevent :=
  let '(e, syse) := rd_decode filter (fn_action x) in
  let mk v := RdEvent dir (fn_name x) (rd_ftype filter (fn_action x)) v in
  if (e =? 0) && (syse =? 0) then []
  else if e =? 0 then [mk syse]
  else if nonzero syse then [mk syse; mk e]
  else [mk e].
(** loopevent and send (/repo/watcher_readdcw.go:401-453); walking through the buffer by
    NextEntryOffset is replaced by the list of its elements (the walk is in ReaddcwBuf.v). *)
Definition loopevent (dir : str) (filter : N) (l : list fninfo) : list rdevent := l ≫= send1 dir filter.
(** /repo/event_readdcw.go:106-119 as seen by the tree; [stat] is the answer of os.Stat. *)
Definition rd_info (join : str → str → str) (stat : str → option bool) (ev : rdevent) : event_info :=
  let p := join (re_dir ev) (re_name ev) in
  EI (re_e ev) p (match re_ftype ev with fTypeUnknown => stat p | fTypeDirectory => Some true | fTypeFile => Some false end) (re_ftype ev).

(** ** Watched directories *)
(** /repo/watcher_readdcw.go:53-61 and 66-69.  Grips and watched structures are
    identified by numbers.  [g_open]: the handle is valid.  The buffer is part of the
    completions. *)
Record grip := Grip { g_open : bool; g_filter : N; g_rec : bool; g_parent : nat }.
(** /repo/watcher_readdcw.go:159-165; [w_count] is a uint8. *)
Record watched := Wd { w_filter : N; w_rec : bool; w_count : N; w_path : str; w_g0 : option nat; w_g1 : option nat }.
(** A read issued to the OS and not yet completed: the grip and the filter and kind it
    was issued with. *)
Record read := Read { r_grip : nat; r_filter : N; r_rec : bool }.
(** Where the loop is: waiting for a completion (/repo/watcher_readdcw.go:348), about to
    read again (369), or about to call loopstate (372). *)
Inductive pc := PWait | PRead (g : nat) | PState (g : nat).
(** The structure of /repo/watcher_readdcw.go:260-267 together with the heap, the reads
    pending in the OS, the queue of the completion port (in no particular order), the
    loop and what was sent to the channel. *)
Record rstate := RS {
  rs_tab : gmap str nat;
  rs_wds : gmap nat watched;
  rs_grips : gmap nat grip;
  rs_next : nat;
  rs_reads : list read;
  rs_queue : list (nat * list fninfo);
  rs_pc : pc;
  rs_sent : list rdevent;
  rs_panic : bool;
}.
Definition rs_init : rstate := RS ∅ ∅ ∅ 0 [] [] PWait [] false.
Definition set_tab (s : rstate) (x : gmap str nat) := RS x (rs_wds s) (rs_grips s) (rs_next s) (rs_reads s) (rs_queue s) (rs_pc s) (rs_sent s) (rs_panic s).
Definition set_wd (s : rstate) (i : nat) (x : watched) :=
  RS (rs_tab s) (<[i := x]> (rs_wds s)) (rs_grips s) (rs_next s) (rs_reads s) (rs_queue s) (rs_pc s) (rs_sent s) (rs_panic s).
Definition set_grip (s : rstate) (i : nat) (x : grip) :=
  RS (rs_tab s) (rs_wds s) (<[i := x]> (rs_grips s)) (rs_next s) (rs_reads s) (rs_queue s) (rs_pc s) (rs_sent s) (rs_panic s).
Definition set_next (s : rstate) (n : nat) := RS (rs_tab s) (rs_wds s) (rs_grips s) n (rs_reads s) (rs_queue s) (rs_pc s) (rs_sent s) (rs_panic s).
Definition set_io (s : rstate) (r : list read) (q : list (nat * list fninfo)) :=
  RS (rs_tab s) (rs_wds s) (rs_grips s) (rs_next s) r q (rs_pc s) (rs_sent s) (rs_panic s).
Definition set_pc (s : rstate) (p : pc) := RS (rs_tab s) (rs_wds s) (rs_grips s) (rs_next s) (rs_reads s) (rs_queue s) p (rs_sent s) (rs_panic s).
Definition set_sent (s : rstate) (l : list rdevent) := RS (rs_tab s) (rs_wds s) (rs_grips s) (rs_next s) (rs_reads s) (rs_queue s) (rs_pc s) l (rs_panic s).
Definition rs_fail (s : rstate) := RS (rs_tab s) (rs_wds s) (rs_grips s) (rs_next s) (rs_reads s) (rs_queue s) (rs_pc s) (rs_sent s) true.
Definition with_filter (x : watched) (f : N) := Wd f (w_rec x) (w_count x) (w_path x) (w_g0 x) (w_g1 x).
Definition with_count (x : watched) (c : N) := Wd (w_filter x) (w_rec x) c (w_path x) (w_g0 x) (w_g1 x).
Definition with_grip (x : watched) (idx : bool) (g : option nat) :=
  if idx then Wd (w_filter x) (w_rec x) (w_count x) (w_path x) (w_g0 x) g
  else Wd (w_filter x) (w_rec x) (w_count x) (w_path x) g (w_g1 x).
Definition the_grip (x : watched) (idx : bool) : option nat := if idx then w_g1 x else w_g0 x.
(** uint8 arithmetic *)
Definition inc8 (c : N) : N := (c + 1) mod 256.
Definition dec8 (c : N) : N := (c + 255) mod 256.

(** /repo/watcher_readdcw.go:113-129; [ok] is the answer of the OS, an error being
    ignored by the loop (:369-371). *)
Definition readDirChanges (s : rstate) (ok : bool) (g : nat) : rstate :=
  match rs_grips s !! g with
  | Some x => if g_open x && ok then set_io s (Read g (rd_encode (g_filter x)) (g_rec x) :: rs_reads s) (rs_queue s) else s
  | None => s
  end.
(** /repo/watcher_readdcw.go:91-108 succeeding.  When it fails the handle is taken to be
    closed (:104 leaves the number of a closed handle, an error of :107 an open one that
    is closed by the caller). *)
Definition register (s : rstate) (g : nat) (x : grip) : rstate :=
  readDirChanges (set_grip s g (Grip true (g_filter x) (g_rec x) (g_parent x))) true g.
(** Closing one handle: the pending reads complete without data. *)
Definition close_grip (s : rstate) (g : nat) : rstate :=
  match rs_grips s !! g with
  | Some x =>
      if g_open x then
        let s := set_grip s g (Grip false (g_filter x) (g_rec x) (g_parent x)) in
        set_io s (filter (λ r, r_grip r ≠ g) (rs_reads s)) (((λ r, (r_grip r, [])) <$> filter (λ r, r_grip r = g) (rs_reads s)) ++ rs_queue s)
      else s
  | None => s
  end.
Definition ogrip (o : option nat) : list nat := match o with Some g => [g] | None => [] end.
Definition grips_of (x : watched) : list nat := ogrip (w_g0 x) ++ ogrip (w_g1 x).
(** /repo/watcher_readdcw.go:228-255, closing succeeding *)
Definition closeHandle (s : rstate) (x : watched) : rstate := foldl close_grip s (grips_of x).
(** /repo/watcher_readdcw.go:202-223; [ok] is the answer of the OS. *)
Definition updateGrip (s : rstate) (ok : bool) (i : nat) (idx : bool) (reset : bool) (newflag : N) : rstate * bool :=
  match rs_wds s !! i with
  | None => (s, false)
  | Some x =>
      if reset then (set_wd s i (with_grip x idx None), true)
      else
        match the_grip x idx with
        | None =>
            if ok then
              let g := rs_next s in
              let x := with_grip x idx (Some g) in
              let s := register (set_next s (S g)) g (Grip false newflag (w_rec x) i) in
              (set_wd s i (with_count x (inc8 (w_count x))), true)
            else (closeHandle s x, false)
        | Some g =>
            let s := set_grip s g (Grip false newflag (w_rec x) i) in
            if ok then
              let s := register s g (Grip false newflag (w_rec x) i) in
              (set_wd s i (with_count x (inc8 (w_count x))), true)
            else (closeHandle s x, false)
        end
  end.
(** /repo/watcher_readdcw.go:188-199 *)
Definition recreate (s : rstate) (ok0 ok1 : bool) (i : nat) : rstate * bool :=
  match rs_wds s !! i with
  | None => (s, false)
  | Some x =>
      let filefilter := w_filter x .&^ FileNotifyChangeDirName in
      let '(s, b) := updateGrip s ok0 i false (filefilter =? 0) filefilter in
      if negb b then (s, false) else
      let dirfilter := w_filter x .& (FileNotifyChangeDirName .| Create readdcw .| Remove readdcw) in
      let '(s, b) := updateGrip s ok1 i true (dirfilter =? 0) (w_filter x .| dirmarker) in
      if negb b then (s, false) else
      match rs_wds s !! i with
      | Some x => (set_wd s i (with_filter x (w_filter x .&^ onlyMachineStates)), true)
      | None => (s, false)
      end
  end.

(** ** Requests *)
(** [All|fileNotifyChangeAll] (/repo/watcher_readdcw.go:298,474) *)
Definition known_events : N := All readdcw .| fileNotifyChangeAll.
(** watch, with newWatched and lazyinit (/repo/watcher_readdcw.go:297-341, 172-185).
    UTF16FromString and the completion port are taken to succeed. *)
Definition rd_watch (s : rstate) (ok0 ok1 : bool) (path : str) (event : N) (isrec : bool) : rstate * bool :=
  if nonzero (event .&^ known_events) then (s, false)
  else
    match rs_tab s !! path with
    | Some i =>
        match rs_wds s !! i with
        | Some x => (set_wd s i (with_filter x (w_filter x .&^ stateUnwatch)), true)
        | None => (s, true)
        end
    | None =>
        let i := rs_next s in
        let s := set_wd (set_next s (S i)) i (Wd event isrec 0 path None None) in
        let '(s, b) := recreate s ok0 ok1 i in
        if b then (set_tab s (<[path := i]> (rs_tab s)), true) else (s, false)
    end.
(** /repo/watcher_readdcw.go:497-508 *)
Definition nonState (s : rstate) (path : str) : option (nat * watched) :=
  match rs_tab s !! path with
  | Some i =>
      match rs_wds s !! i with
      | Some x => if nonzero (w_filter x .& onlyMachineStates) then None else Some (i, x)
      | None => None
      end
  | None => None
  end.
(** /repo/watcher_readdcw.go:473-494.  [ok = false]: closing some handle fails; the
    handles are invalid nonetheless (:245-251). *)
Definition rd_rewatch (s : rstate) (ok : bool) (path : str) (oldevent newevent : N) (isrec : bool) : rstate * bool :=
  if nonzero (newevent .&^ known_events) then (s, false)
  else
    match nonState s path with
    | None => (s, false)
    | Some (i, x) =>
        if nonzero (N.lxor (w_filter x .& (onlyNotifyChanges .| onlyNGlobalEvents)) oldevent) then (rs_fail s, false)
        else if ok then
          let x := Wd (stateRewatch .| newevent) isrec (w_count x) (w_path x) (w_g0 x) (w_g1 x) in
          (closeHandle (set_wd s i x) x, true)
        else (closeHandle (set_wd s i (with_filter x oldevent)) x, false)
    end.
(** /repo/watcher_readdcw.go:521-548.  [there]: GetFileAttributes succeeds; [ok]: posting
    succeeds. *)
Definition rd_unwatch (s : rstate) (there ok : bool) (path : str) : rstate * bool :=
  match nonState s path with
  | None => (s, false)
  | Some (i, x) =>
      if there then (set_wd s i (with_filter x (w_filter x .| stateUnwatch)), true)
      else if ok then
        let s := set_wd s i (with_filter x (w_filter x .| stateUnwatch)) in
        (set_io s (rs_reads s) (((λ g, (g, [])) <$> grips_of x) ++ rs_queue s), true)
      else (s, false)
  end.

(** ** The loop (/repo/watcher_readdcw.go:344-374; closing the port is left out) *)
(** loopstate (/repo/watcher_readdcw.go:377-398) *)
Definition loopstate (s : rstate) (ok0 ok1 : bool) (g : nat) : rstate :=
  match rs_grips s !! g with
  | None => s
  | Some gr =>
      match rs_wds s !! g_parent gr with
      | None => s
      | Some x =>
          let st := w_filter x .& onlyMachineStates in
          if st =? 0 then s
          else
            let x := with_count x (dec8 (w_count x)) in
            let s := set_wd s (g_parent gr) x in
            if w_count x =? 0 then
              if st =? stateRewatch then (recreate s ok0 ok1 (g_parent gr)).1
              else if st =? stateUnwatch then
                let s := closeHandle s x in set_tab s (delete (w_path x) (rs_tab s))
              else if st =? stateCPClose then s
              else rs_fail s
            else s
      end
  end.

(** ** Executions *)
(** Requests of the tree; each holds the lock from beginning to end.  RecursiveRewatch
    for different paths (/repo/watcher_readdcw.go:461-470) is QUnwatch then QWatch. *)
Inductive rreq :=
  | QWatch (path : str) (event : N) (isrec : bool)
  | QRewatch (path : str) (old new : N) (isrec : bool)
  | QUnwatch (path : str).
(** Events of an execution: a request, with the answers of the OS and the result; the OS
    completing a read with data; the loop taking a completion from the queue and sending
    its events (:348-367), reading again (:369), calling loopstate (:372). *)
Inductive rlabel :=
  | LReq (q : rreq) (ok0 ok1 : bool) (res : bool)
  | LData (g : nat) (l : list fninfo)
  | LTake (g : nat) (l : list fninfo)
  | LRead (g : nat) (ok : bool)
  | LState (g : nat) (ok0 ok1 : bool).
Definition rd_request (s : rstate) (q : rreq) (ok0 ok1 : bool) : rstate * bool :=
  match q with
  | QWatch p e r => rd_watch s ok0 ok1 p e r
  | QRewatch p old new r => rd_rewatch s ok0 p old new r
  | QUnwatch p => rd_unwatch s ok0 ok1 p
  end.
Inductive rdstep (s : rstate) : rlabel → rstate → Prop :=
  | RdReq q ok0 ok1 s' r : rd_request s q ok0 ok1 = (s', r) → rdstep s (LReq q ok0 ok1 r) s'
  | RdData g l l1 x l2 : rs_reads s = l1 ++ x :: l2 → r_grip x = g →
      rdstep s (LData g l) (set_io s (l1 ++ l2) ((g, l) :: rs_queue s))
  | RdTake g l l1 l2 gr wd : rs_pc s = PWait → rs_queue s = l1 ++ (g, l) :: l2 →
      rs_grips s !! g = Some gr → rs_wds s !! g_parent gr = Some wd →
      rdstep s (LTake g l) (set_pc (set_sent (set_io s (rs_reads s) (l1 ++ l2)) (rs_sent s ++ loopevent (w_path wd) (g_filter gr) l)) (PRead g))
  | RdRead g ok : rs_pc s = PRead g → rdstep s (LRead g ok) (set_pc (readDirChanges s ok g) (PState g))
  | RdState g ok0 ok1 : rs_pc s = PState g → rdstep s (LState g ok0 ok1) (loopstate (set_pc s PWait) ok0 ok1 g).
Inductive rdexec : list rlabel → rstate → Prop :=
  | rdexec_init : rdexec [] rs_init
  | rdexec_step tr s l s' : rdexec tr s → rs_panic s = false → rdstep s l s' → rdexec (tr ++ [l]) s'.
