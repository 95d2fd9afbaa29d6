(** * Ex_Units: the tables of the unit tests of /repo replayed on the model (validation of
    the model, not property theorems) *)
From Verif Require Import Base Event EventString Watchpoint Paths Clean Fsev.
Local Open Scope N_scope.

(** TestWatchpoint (/repo/watchpoint_test.go:29-162), on every platform. *)
Section watchpoint.
Context (P : platform).
Notation C := (Create P). Notation R := (Remove P). Notation W := (Write P). Notation N' := (Rename P). Notation rc := (recursive P).
Inductive wop := WAdd (c : positive) (e : N) | WDel (c : positive) (e : N).
Definition wrun (wp : watchpoint) (o : wop) : watchpoint * eventDiff :=
  match o with WAdd c e => wadd P wp (KUser c) e | WDel c e => wdel P wp (KUser c) e end.
Definition wcases : list (wop * eventDiff * N) := [
  (WAdd 1 R, (0, R), R);
  (WAdd 2 (C .| R .| rc), (R, R .| C), C .| R .| rc);
  (WAdd 3 (C .| N'), (C .| R, C .| R .| N'), C .| R .| N' .| rc);
  (WAdd 1 (W .| rc), (C .| R .| N', C .| R .| N' .| W), C .| R .| N' .| W .| rc);
  (WAdd 3 (R .| rc), none, C .| R .| N' .| W .| rc);
  (WDel 1 (All P .| rc), (C .| R .| N' .| W, C .| R .| N'), C .| R .| N' .| rc);
  (WDel 3 (All P .| rc), (C .| R .| N', C .| R), C .| R .| rc);
  (WAdd 4 (C .| R), none, C .| R .| rc);
  (WDel 2 (All P .| rc), none, C .| R);
  (WAdd 4 (rc .| W), (C .| R, C .| R .| W), C .| R .| W .| rc);
  (WDel 4 C, (C .| R .| W, R .| W), R .| W .| rc);
  (WAdd 4 (C .| N'), (R .| W, C .| R .| N' .| W), C .| R .| N' .| W .| rc);
  (WAdd 3 (R .| W), none, C .| R .| N' .| W .| rc);
  (WDel 4 (C .| R .| W), (C .| R .| N' .| W, R .| N' .| W), R .| N' .| W .| rc);
  (WDel 3 R, (R .| N' .| W, N' .| W), N' .| W .| rc);
  (WDel 4 (N' .| rc), (N' .| W, W), W)].
Fixpoint wcheck (wp : watchpoint) (l : list (wop * eventDiff * N)) : bool :=
  match l with
  | [] => true
  | (o, d, t) :: l => let '(wp, d') := wrun wp o in bool_decide (d' = d) && (wget wp KNil =? t) && wcheck wp l
  end.
End watchpoint.
Example ex_watchpoint : forallb (λ P, wcheck P ∅ (wcases P)) platforms = true.
Proof. by vm_compute. Qed.

(** TestJoinevents (/repo/util_test.go:41-57) *)
Example ex_joinevents : forallb (λ P, bool_decide (
  [joinevents P []; joinevents P [Create P]; joinevents P [Rename P]; joinevents P [Create P; Write P; Remove P]] =
  [All P; Create P; Rename P; Create P .| Write P .| Remove P])) platforms = true.
Proof. by vm_compute. Qed.

(** TestTreeSplit, TestTreeBase, TestTreeIndexSep, TestTreeLastIndexSep
    (/repo/util_test.go:59-138); the same with the other separator. *)
Definition tosep (sep : ascii) (s : string) : str := (λ c, if Ascii.eqb c "/" then sep else c) <$> b s.
Example ex_split : forallb (λ sep,
  forallb (λ x : string * string * string, bool_decide (split sep (tosep sep x.1.1) = (tosep sep x.1.2, tosep sep x.2)) && bool_decide (base sep (tosep sep x.1.1) = tosep sep x.2)) [
    ("/github.com/rjeczalik/fakerpc", "/github.com/rjeczalik", "fakerpc");
    ("/home/rjeczalik/src", "/home/rjeczalik", "src");
    ("/Users/pknap/porn/gopher.avi", "/Users/pknap/porn", "gopher.avi");
    ("C:/Documents and Users", "C:", "Documents and Users");
    ("C:/Documents and Users/pblaszczyk/wiertarka.exe", "C:/Documents and Users/pblaszczyk", "wiertarka.exe");
    ("/home/(╯°□°）╯︵ ┻━┻", "/home", "(╯°□°）╯︵ ┻━┻")]%string) ["/"%char; "\"%char] = true.
Proof. by vm_compute. Qed.
Example ex_indexSep : forallb (λ sep,
  forallb (λ x : string * nat, bool_decide (indexSep sep (tosep sep x.1) = Some x.2)) [
    ("github.com/rjeczalik/fakerpc"%string, 10%nat); ("home/rjeczalik/src"%string, 4%nat); ("Users/pknap/porn/gopher.avi"%string, 5%nat);
    ("C:/Documents and Users"%string, 2%nat); ("Documents and Users/pblaszczyk/wiertarka.exe"%string, 19%nat); ("(╯°□°）╯︵ ┻━┻/Downloads"%string, 30%nat)] &&
  forallb (λ x : string * nat, bool_decide (lastIndexSep sep (tosep sep x.1) = Some x.2)) [
    ("github.com/rjeczalik/fakerpc"%string, 20%nat); ("home/rjeczalik/src"%string, 14%nat); ("Users/pknap/porn/gopher.avi"%string, 16%nat);
    ("C:/Documents and Users"%string, 2%nat); ("Documents and Users/pblaszczyk/wiertarka.exe"%string, 30%nat); ("/home/(╯°□°）╯︵ ┻━┻"%string, 5%nat)])
  ["/"%char; "\"%char] = true.
Proof. by vm_compute. Qed.

(** TestSplitflags and TestWatchStrip (/repo/watcher_fsevents_test.go:15-86) *)
Example ex_splitflags : [splitflags 0; splitflags 0xD; splitflags (0x10 .| 0x40 .| 0x80 .| 0x1000); splitflags (0x40000 .| 0x100 .| 0x200)] =
  [[]; [0x1; 0x4; 0x8]; [0x10; 0x40; 0x80; 0x1000]; [0x100; 0x200; 0x40000]].
Proof. by vm_compute. Qed.
Fixpoint strips (x : fwatch) (l : list N) : list N :=
  match l with
  | [] => []
  | set :: l => let '(x, e) := strip x (b "file") set in e :: strips x l
  end.
Example ex_strip :
  let c := FSEventsCreated in let r := FSEventsRemoved in let w := FSEventsModified in let i := FSEventsInodeMetaMod in let o := 0x4000 in
  strips (FWatch ∅ [] 0 false true) <$> [[c .| w; c .| w .| i]; [c; c .| r; c .| r]; [c .| w; c .| w .| o]; [c .| w; w .| i; r .| w .| i]; [r .| w .| i]] =
  [[c .| w; w .| i]; [c; r; c]; [c .| w; w .| o]; [c .| w; w .| i; r]; [r]].
Proof. by vm_compute. Qed.

(** TestEventString (/repo/event_test.go:21-33): the names, in some order. *)
Example ex_String : forallb (λ P, forallb (λ x : N * list string,
  bool_decide (event_String (estr P) [] x.1 = join_with [bar] (bytes_of <$> x.2))) [
    (Create P, ["notify.Create"]); (Create P .| Remove P, ["notify.Create"; "notify.Remove"]);
    (Create P .| Remove P .| Write P, ["notify.Create"; "notify.Remove"; "notify.Write"]);
    (Create P .| Write P .| Rename P, ["notify.Create"; "notify.Write"; "notify.Rename"])]%string) platforms = true.
Proof. by vm_compute. Qed.

(** TestCanonicalNoSymlink (/repo/util_test.go:31-39), TestCanonical, TestCanonicalCircular and
    TestCanonical_RelativeSymlink (/repo/util_unix_test.go:44-125); the working directory is
    /w, the symlinks with random names are /t/1 and /w/2, /t/3 and /t/4. *)
Definition fsu : fsys := list_to_map ([([], KDir); ([b "w"], KDir); ([b "w"; b "testdata"], KDir); ([b "w"; b "notify.go"], KFile);
  ([b "w"; b "testdata"; b "vfs.txt"], KFile); ([b "t"], KDir); ([b "t"; b "1"], KLink (b "/w"));
  ([b "w"; b "2"], KLink (b "/w/testdata"));
  ([b "t"; b "3"], KLink (b "/t/4")); ([b "t"; b "4"], KLink (b "/t/3"));
  ([b "w"; b "a"; b "b"; b "c"], KLink (b "x/y/z/../z/../z"))] ++
  ((λ q, (b "w" :: q, KDir)) <$> [[b "a"]; [b "a"; b "b"]; [b "a"; b "b"; b "x"]; [b "a"; b "b"; b "x"; b "y"]; [b "a"; b "b"; b "x"; b "y"; b "z"];
    [b "a"; b "b"; b "x"; b "y"; b "z"; b "d"]; [b "a"; b "b"; b "x"; b "y"; b "z"; b "d"; b "e"]; [b "a"; b "b"; b "x"; b "y"; b "z"; b "d"; b "e"; b "f"]])).
Example ex_canonical :
  (λ x, canonical fsu 130 (Some (b "/w")) (bytes_of x)) <$>
    ["."; "testdata"; "testdata/.."; "/t/1"; "/w/2"; "/t/1/notify.go"; "/w/2/vfs.txt"; "/t/1/2/vfs.txt"; "/t/3"; "/w/a/b/c/d/e/f"]%string =
  [Some (inl (b "/w")); Some (inl (b "/w/testdata")); Some (inl (b "/w")); Some (inl (b "/w")); Some (inl (b "/w/testdata")); Some (inl (b "/w/notify.go"));
   Some (inl (b "/w/testdata/vfs.txt")); Some (inl (b "/w/testdata/vfs.txt")); Some (inr EDepth); Some (inl (b "/w/a/b/x/y/z/d/e/f"))].
Proof. by vm_compute. Qed.
