(** * Ex_Rec: the tables of /repo/tree_recursive_test.go replayed on the model (validation
    of the model, not property theorems).  The calls recorded by each step are compared
    as multisets, since maps are iterated in any order; channel [i] is number [i + 1]. *)
From Verif Require Import Base Event Watchpoint Paths Loop Node NonRec Rec.
From Verif Require Ex_NonRec.
Local Open Scope N_scope.

Definition good_env : env :=
  Env fsevents Ex_NonRec.slash Ex_NonRec.unixvol (λ _ _, true) (λ n l, if Nat.even n then l else reverse l) (λ _ l, l) (λ _ _, None) 1000.
Inductive op := OW (p : string) (r : bool) (c : positive) (e : N) | OS (c : positive).
Definition run1 (E : env) (s : st) (o : op) : st :=
  match o with
  | OW p r c e => (rec_Watch E s (b p) r (KUser c) e).1
  | OS c => rec_Stop E s (KUser c)
  end.
Fixpoint check (E : env) (s : st) (l : list (op * list wcall)) : st * bool :=
  match l with
  | [] => (s, negb (st_panic s))
  | (o, want) :: l =>
      let s' := run1 E s o in
      let got := (drop (length (st_log s)) (st_log s')).*1 in
      if Ex_NonRec.same_calls got want then check E s' l else (s', false)
  end.
Definition expect (s : st) (p : string) (e : N) (l : list positive) : bool :=
  Ex_NonRec.same_keys (rec_dispatch good_env (st_tree s) (EI e (b p) (Some false) fTypeUnknown)) (KUser <$> l).
Notation C := (Create fsevents). Notation R := (Remove fsevents).
Notation W := (Write fsevents). Notation N' := (Rename fsevents).

(** TestRecursiveTree (/repo/tree_recursive_test.go:9-407) *)
Definition watches1 : list (op * list wcall) := [
  (OW "/r/src/github.com/rjeczalik/fs/fs.go" false 1 (C), [WWatch (b "/r/src/github.com/rjeczalik/fs/fs.go") (C)]);
  (OW "/r/src/github.com/rjeczalik/fs/cmd" true 2 (R), [WRecWatch (b "/r/src/github.com/rjeczalik/fs/cmd") (R)]);
  (OW "/r/src/github.com/rjeczalik/fs" false 3 (N'), [WRecWatch (b "/r/src/github.com/rjeczalik/fs") (C .| R .| N'); WRecUnwatch (b "/r/src/github.com/rjeczalik/fs/cmd"); WUnwatch (b "/r/src/github.com/rjeczalik/fs/fs.go")]);
  (OW "/r/src/github.com/ppknap/link/README.md" false 1 (C), [WWatch (b "/r/src/github.com/ppknap/link/README.md") (C)]);
  (OW "/r/src/github.com/ppknap/link/include" true 4 (R), [WRecWatch (b "/r/src/github.com/ppknap/link/include") (R)]);
  (OW "/r/src/github.com/ppknap/link/include" false 1 (W), [WRecRewatch (b "/r/src/github.com/ppknap/link/include") (b "/r/src/github.com/ppknap/link/include") (R) (R .| W)]);
  (OW "/r/src/github.com/ppknap/link/test/Jamfile.jam" false 1 (N'), [WWatch (b "/r/src/github.com/ppknap/link/test/Jamfile.jam") (N')]);
  (OW "/r/src/github.com/ppknap/link/test/Jamfile.jam" false 1 (C), [WRewatch (b "/r/src/github.com/ppknap/link/test/Jamfile.jam") (N') (N' .| C)]);
  (OW "/r/src/github.com/ppknap" true 1 (C), [WRecWatch (b "/r/src/github.com/ppknap") (C .| R .| W .| N'); WUnwatch (b "/r/src/github.com/ppknap/link/README.md"); WRecUnwatch (b "/r/src/github.com/ppknap/link/include"); WUnwatch (b "/r/src/github.com/ppknap/link/test/Jamfile.jam")]);
  (OW "/r/src/github.com/rjeczalik/fs/README.md" false 1 (N'), []);
  (OW "/r/src/github.com/rjeczalik/fs/cmd/gotree" false 3 (C .| R), []);
  (OW "/r/src/github.com/pblaszczyk/qttu/src/main.cc" false 1 (C), [WWatch (b "/r/src/github.com/pblaszczyk/qttu/src/main.cc") (C)]);
  (OW "/r/src/github.com/pblaszczyk/qttu/src/main.cc" false 1 (R), [WRewatch (b "/r/src/github.com/pblaszczyk/qttu/src/main.cc") (C) (C .| R)]);
  (OW "/r/src/github.com/pblaszczyk/qttu/src/main.cc" false 1 (C .| R), []);
  (OW "/r/src/github.com/pblaszczyk/qttu/src" false 1 (C), [WRecRewatch (b "/r/src/github.com/pblaszczyk/qttu/src/main.cc") (b "/r/src/github.com/pblaszczyk/qttu/src") (C .| R) (C .| R)]);
  (OW "/r/src/github.com/pblaszczyk/qttu" false 5 (W), [WRecRewatch (b "/r/src/github.com/pblaszczyk/qttu/src") (b "/r/src/github.com/pblaszczyk/qttu") (C .| R) (C .| R .| W)]);
  (OW "/r/src/github.com/rjeczalik/fs/fs.go" false 4 (N'), [])].
Example ex_watches1 : (check good_env init_st watches1).2 = true.
Proof. by vm_compute. Qed.
Definition s1 : st := (check good_env init_st watches1).1.
Example ex_events1 : forallb id [
  expect s1 "/r/src/github.com/rjeczalik/fs/fs.go" (N') [3; 4]%positive;
  expect s1 "/r/src/github.com/rjeczalik/fs/fs.go" (C) [1]%positive;
  expect s1 "/r/src/github.com/rjeczalik/fs/fs.go/file" (C) [1]%positive;
  expect s1 "/r/src/github.com/rjeczalik/fs" (N') [3]%positive;
  expect s1 "/r/src/github.com/rjeczalik/fs/fs_test.go" (N') [3]%positive;
  expect s1 "/r/src/github.com/rjeczalik/fs/cmd/mktree/main.go" (R) [2]%positive;
  expect s1 "/r/src/github.com/rjeczalik/fs/cmd/gotree" (R) [2; 3]%positive;
  expect s1 "/r/src/github.com/rjeczalik/fs/cmd" (R) [2]%positive;
  expect s1 "/r/src/github.com/rjeczalik/fs/fs.go/file" (W) []%positive;
  expect s1 "/r/src/github.com/rjeczalik/fs/fs.go/file" (W) []%positive;
  expect s1 "/r/src/github.com/rjeczalik/fs" (R) []%positive;
  expect s1 "/r/src/github.com/rjeczalik/fs/cmd" (N') [3]%positive;
  expect s1 "/r/src/github.com/rjeczalik/fs/cmd/mktree/main.go" (W) []%positive;
  expect s1 "/r/src/github.com/rjeczalik/fs/cmd/gotree" (N') []%positive;
  expect s1 "/r/src/github.com/rjeczalik/fs/cmd/file" (N') []%positive;
  expect s1 "/r/src/github.com/rjeczalik/fs/fs.go" (N') [3; 4]%positive] = true.
Proof. by vm_compute. Qed.
Definition stops1 : list (op * list wcall) := [
  (OS 2, []);
  (OS 5, [WRecRewatch (b "/r/src/github.com/pblaszczyk/qttu") (b "/r/src/github.com/pblaszczyk/qttu") (C .| R .| W) (C .| R)])].
Example ex_stops1 : (check good_env s1 stops1).2 = true.
Proof. by vm_compute. Qed.
(** TestRecursiveTreeWatchInactiveMerge (/repo/tree_recursive_test.go:409-477) *)
Definition watches2 : list (op * list wcall) := [
  (OW "/r/src/github.com/rjeczalik/fs" false 1 (C), [WWatch (b "/r/src/github.com/rjeczalik/fs") (C)]);
  (OW "/r/src/github.com/rjeczalik/fs/cmd/gotree" true 1 (R), [WRecRewatch (b "/r/src/github.com/rjeczalik/fs") (b "/r/src/github.com/rjeczalik/fs") (C) (C .| R)])].
Example ex_watches2 : (check good_env init_st watches2).2 = true.
Proof. by vm_compute. Qed.
Definition s2 : st := (check good_env init_st watches2).1.
Example ex_events2 : forallb id [
  expect s2 "/r/src/github.com/rjeczalik/fs/.fs.go.swp" (C) [1]%positive;
  expect s2 "/r/src/github.com/rjeczalik/fs/.fs.go.swp" (R) []%positive;
  expect s2 "/r/src/github.com/rjeczalik/fs" (R) []%positive;
  expect s2 "/r/src/github.com/rjeczalik/fs/cmd/gotree/main.go" (R) [1]%positive] = true.
Proof. by vm_compute. Qed.
(** TestRecursiveTree_Windows (/repo/tree_recursive_test.go:479-521) *)
Definition watches3 : list (op * list wcall) := [
  (OW "/r/src/github.com/rjeczalik/fs" false 1 (1), [WWatch (b "/r/src/github.com/rjeczalik/fs") (1)])].
Example ex_watches3 : (check good_env init_st watches3).2 = true.
Proof. by vm_compute. Qed.
Definition s3 : st := (check good_env init_st watches3).1.
Example ex_events3 : forallb id [
  expect s3 "/r/src/github.com/rjeczalik/fs" (1) [1]%positive;
  expect s3 "/r/src/github.com/rjeczalik/fs/fs.go" (1) [1]%positive] = true.
Proof. by vm_compute. Qed.
