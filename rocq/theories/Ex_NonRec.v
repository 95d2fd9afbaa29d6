(** * Ex_NonRec: the call tables of /repo/tree_nonrecursive_test.go replayed on the
    model (validation of the model, not property theorems). *)
From Verif Require Import Base Event Watchpoint Paths Loop Node NonRec.
Local Open Scope N_scope.

(** /repo/testdata/vfs.txt below "/r": directory -> entries (true = directory). *)
Definition vfs : list (str * list (str * bool)) := [
  (b "/r", [(b "src", true)]);
  (b "/r/src", [(b "github.com", true)]);
  (b "/r/src/github.com", [(b "pblaszczyk", true); (b "ppknap", true); (b "rjeczalik", true)]);
  (b "/r/src/github.com/pblaszczyk", [(b "qttu", true)]);
  (b "/r/src/github.com/pblaszczyk/qttu", [(b ".travis.yml", false); (b "LICENSE", false); (b "README.md", false); (b "include", true); (b "qttu.pri", false); (b "qttu.pro", false); (b "src", true)]);
  (b "/r/src/github.com/pblaszczyk/qttu/include", [(b "qttu", true)]);
  (b "/r/src/github.com/pblaszczyk/qttu/include/qttu", [(b "detail", true); (b "runner.hh", false)]);
  (b "/r/src/github.com/pblaszczyk/qttu/include/qttu/detail", [(b "registrator.hh", false); (b "registry.hh", false)]);
  (b "/r/src/github.com/pblaszczyk/qttu/src", [(b "main.cc", false); (b "reg.cc", false)]);
  (b "/r/src/github.com/ppknap", [(b "link", true)]);
  (b "/r/src/github.com/ppknap/link", [(b ".travis.yml", false); (b "Jamroot.jam", false); (b "LICENSE.md", false); (b "README.md", false); (b "include", true); (b "test", true)]);
  (b "/r/src/github.com/ppknap/link/include", [(b "coost", true)]);
  (b "/r/src/github.com/ppknap/link/include/coost", [(b "link", true); (b "link.hpp", false)]);
  (b "/r/src/github.com/ppknap/link/include/coost/link", [(b "definitions.hpp", false); (b "detail", true); (b "link.hpp", false)]);
  (b "/r/src/github.com/ppknap/link/include/coost/link/detail", [(b "bundle.hpp", false); (b "container_invoker.hpp", false); (b "container_value_trait.hpp", false); (b "dummy_type.hpp", false); (b "function_trait.hpp", false); (b "immediate_invoker.hpp", false); (b "stdhelpers", true); (b "vertex.hpp", false); (b "wire.hpp", false)]);
  (b "/r/src/github.com/ppknap/link/include/coost/link/detail/stdhelpers", [(b "always_same.hpp", false); (b "make_unique.hpp", false)]);
  (b "/r/src/github.com/ppknap/link/test", [(b "Jamfile.jam", false); (b "counter_helper.hpp", false); (b "test_circular_calls.cpp", false); (b "test_container.cpp", false); (b "test_copy.cpp", false); (b "test_destructor.cpp", false); (b "test_immediate.cpp", false); (b "test_initialize.cpp", false)]);
  (b "/r/src/github.com/rjeczalik", [(b "fs", true)]);
  (b "/r/src/github.com/rjeczalik/fs", [(b ".travis.yml", false); (b "LICENSE", false); (b "README.md", false); (b "appveyor.yml", false); (b "cmd", true); (b "fs.go", false); (b "fsutil", true); (b "memfs", true)]);
  (b "/r/src/github.com/rjeczalik/fs/cmd", [(b "gotree", true); (b "mktree", true)]);
  (b "/r/src/github.com/rjeczalik/fs/cmd/gotree", [(b "go.go", false); (b "main.go", false)]);
  (b "/r/src/github.com/rjeczalik/fs/cmd/mktree", [(b "main.go", false)]);
  (b "/r/src/github.com/rjeczalik/fs/fsutil", [(b "fixture_test.go", false); (b "fsutil.go", false); (b "fsutil_test.go", false); (b "rel.go", false); (b "rel_test.go", false); (b "tee.go", false); (b "tee_test.go", false)]);
  (b "/r/src/github.com/rjeczalik/fs/memfs", [(b "memfs.go", false); (b "memfs_test.go", false); (b "tree.go", false); (b "tree_test.go", false); (b "util.go", false); (b "util_test.go", false)])].

Fixpoint assoc {A} (l : list (str * A)) (k : str) : option A :=
  match l with
  | [] => None
  | (k', v) :: l => if decide (k = k') then Some v else assoc l k
  end.
Definition vfs_readdir (_ : nat) (d : str) : option (list dirent) :=
  option_map (map (λ '(n, isd), Dirent n isd false)) (assoc vfs d).
Definition unixvol (_ : str) : str := [].
Definition slash : ascii := "/"%char.
(** A watcher that always succeeds; iteration orders: the model's own, reversed
    on odd ticks. *)
Definition good_env : env :=
  Env linux slash unixvol (λ _ _, true)
      (λ n l, if Nat.even n then l else reverse l) (λ _ l, l) vfs_readdir 1000.

Inductive op := OW (p : string) (r : bool) (c : positive) (e : N) | OS (c : positive).
Definition run1 (E : env) (s : st) (o : op) : st :=
  match o with
  | OW p r c e => (nr_Watch E s (b p) r (KUser c) e).1
  | OS c => nr_Stop E s (KUser c)
  end.
Definition eqb_call (x y : wcall) : bool :=
  match x, y with
  | WWatch p e, WWatch p' e' => bool_decide (p = p') && (e =? e')
  | WUnwatch p, WUnwatch p' => bool_decide (p = p')
  | WRewatch p e n, WRewatch p' e' n' => bool_decide (p = p') && (e =? e') && (n =? n')
  | WRecWatch p e, WRecWatch p' e' => bool_decide (p = p') && (e =? e')
  | WRecUnwatch p, WRecUnwatch p' => bool_decide (p = p')
  | WRecRewatch p q e n, WRecRewatch p' q' e' n' =>
      bool_decide (p = p') && bool_decide (q = q') && (e =? e') && (n =? n')
  | _, _ => false
  end.
Fixpoint remove1 (x : wcall) (l : list wcall) : option (list wcall) :=
  match l with
  | [] => None
  | y :: l => if eqb_call x y then Some l else cons y <$> remove1 x l
  end.
Fixpoint same_calls (l l' : list wcall) : bool :=
  match l with
  | [] => match l' with [] => true | _ => false end
  | x :: l => match remove1 x l' with Some l' => same_calls l l' | None => false end
  end.
(** Run the cases, comparing (as multisets) the calls recorded by each step. *)
Fixpoint check (E : env) (s : st) (l : list (op * list wcall)) : st * bool :=
  match l with
  | [] => (s, negb (st_panic s))
  | (o, want) :: l =>
      let s' := run1 E s o in
      let got := (drop (length (st_log s)) (st_log s')).*1 in
      if same_calls got want then check E s' l else (s', false)
  end.
Notation C := (Create linux). Notation R := (Remove linux).
Notation W := (Write linux). Notation N' := (Rename linux).
Definition watches : list (op * list wcall) := [
  (OW "/r/src/github.com/rjeczalik/fs/fs.go" false 1 N', [WWatch (b "/r/src/github.com/rjeczalik/fs/fs.go") (N')]);
  (OW "/r/src/github.com/rjeczalik/fs/cmd" true 2 R, [WWatch (b "/r/src/github.com/rjeczalik/fs/cmd") (C .| R); WWatch (b "/r/src/github.com/rjeczalik/fs/cmd/gotree") (C .| R); WWatch (b "/r/src/github.com/rjeczalik/fs/cmd/mktree") (C .| R)]);
  (OW "/r/src/github.com/rjeczalik/fs/cmd" true 3 N', [WRewatch (b "/r/src/github.com/rjeczalik/fs/cmd") (C .| R) (C .| R .| N'); WRewatch (b "/r/src/github.com/rjeczalik/fs/cmd/gotree") (C .| R) (C .| R .| N'); WRewatch (b "/r/src/github.com/rjeczalik/fs/cmd/mktree") (C .| R) (C .| R .| N')]);
  (OW "/r/src/github.com/rjeczalik/fs/cmd/mktree" true 3 W, [WRewatch (b "/r/src/github.com/rjeczalik/fs/cmd/mktree") (C .| R .| N') (C .| R .| N' .| W)]);
  (OW "/r/src/github.com/pblaszczyk/qttu/include" false 4 C, [WWatch (b "/r/src/github.com/pblaszczyk/qttu/include") (C)]);
  (OW "/r/src/github.com/pblaszczyk/qttu/include/qttu/detail" true 4 W, [WWatch (b "/r/src/github.com/pblaszczyk/qttu/include/qttu/detail") (C .| W)]);
  (OW "/r/src/github.com/pblaszczyk/qttu/include" true 1 N', [WRewatch (b "/r/src/github.com/pblaszczyk/qttu/include") (C) (C .| N'); WWatch (b "/r/src/github.com/pblaszczyk/qttu/include/qttu") (C .| N'); WRewatch (b "/r/src/github.com/pblaszczyk/qttu/include/qttu/detail") (C .| W) (C .| W .| N')]);
  (OW "/r/src/github.com/pblaszczyk" true 2 W, [WWatch (b "/r/src/github.com/pblaszczyk") (C .| W); WWatch (b "/r/src/github.com/pblaszczyk/qttu") (C .| W); WRewatch (b "/r/src/github.com/pblaszczyk/qttu/include") (C .| N') (C .| N' .| W); WRewatch (b "/r/src/github.com/pblaszczyk/qttu/include/qttu") (C .| N') (C .| N' .| W); WWatch (b "/r/src/github.com/pblaszczyk/qttu/src") (C .| W)]);
  (OW "/r/src/github.com/pblaszczyk/qttu/include" true 5 W, []);
  (OW "/r/src/github.com/pblaszczyk/qttu" false 4 R, [WRewatch (b "/r/src/github.com/pblaszczyk/qttu") (C .| W) (C .| W .| R)])].
Definition stops : list (op * list wcall) := [
  (OS 5, []);
  (OS 4, [WRewatch (b "/r/src/github.com/pblaszczyk/qttu") (C .| W .| R) (C .| W)]);
  (OS 3, [WRewatch (b "/r/src/github.com/rjeczalik/fs/cmd") (C .| R .| N') (C .| R); WRewatch (b "/r/src/github.com/rjeczalik/fs/cmd/gotree") (C .| R .| N') (C .| R); WRewatch (b "/r/src/github.com/rjeczalik/fs/cmd/mktree") (C .| R .| N' .| W) (C .| R)]);
  (OS 2, [WUnwatch (b "/r/src/github.com/pblaszczyk"); WUnwatch (b "/r/src/github.com/pblaszczyk/qttu"); WRewatch (b "/r/src/github.com/pblaszczyk/qttu/include") (C .| N' .| W) (C .| N'); WRewatch (b "/r/src/github.com/pblaszczyk/qttu/include/qttu") (C .| N' .| W) (C .| N'); WRewatch (b "/r/src/github.com/pblaszczyk/qttu/include/qttu/detail") (C .| N' .| W) (C .| N'); WUnwatch (b "/r/src/github.com/pblaszczyk/qttu/src"); WUnwatch (b "/r/src/github.com/rjeczalik/fs/cmd"); WUnwatch (b "/r/src/github.com/rjeczalik/fs/cmd/gotree"); WUnwatch (b "/r/src/github.com/rjeczalik/fs/cmd/mktree")]);
  (OS 1, [WUnwatch (b "/r/src/github.com/pblaszczyk/qttu/include"); WUnwatch (b "/r/src/github.com/pblaszczyk/qttu/include/qttu"); WUnwatch (b "/r/src/github.com/pblaszczyk/qttu/include/qttu/detail"); WUnwatch (b "/r/src/github.com/rjeczalik/fs/fs.go")])].

Example ex_watches : (check good_env init_st watches).2 = true.
Proof. by vm_compute. Qed.
Definition s_watched : st := (check good_env init_st watches).1.
Example ex_stops : (check good_env s_watched stops).2 = true.
Proof. by vm_compute. Qed.
Example ex_all_released :
  forallb (λ kv, (size (default ∅ (nwatch kv.2)) =? 0)%nat)
    (map_to_list (st_tree (check good_env s_watched stops).1)) = true.
Proof. by vm_compute. Qed.

(** Events: receivers as in the test table (channel numbers are index+1). *)
Definition recv_of (s : st) (p : string) (e : N) (dir : bool) : list key * bool :=
  nr_dispatch good_env (st_tree s) (EI e (b p) (Some dir) fTypeUnknown).
Fixpoint remk (x : key) (l : list key) : option (list key) :=
  match l with [] => None | y :: l => if decide (x = y) then Some l else cons y <$> remk x l end.
Fixpoint same_keys (l l' : list key) : bool :=
  match l with
  | [] => match l' with [] => true | _ => false end
  | x :: l => match remk x l' with Some l' => same_keys l l' | None => false end
  end.
Definition expect (s : st) (p : string) (e : N) (l : list positive) : bool :=
  same_keys (recv_of s p e false).1 (KUser <$> l).
Example ex_events : forallb id [
  expect s_watched "/r/src/github.com/rjeczalik/fs/fs.go" N' [1]%positive;
  expect s_watched "/r/src/github.com/rjeczalik/fs/fs.go" C []%positive;
  expect s_watched "/r/src/github.com/rjeczalik/fs/cmd/cmd.go" R [2]%positive;
  expect s_watched "/r/src/github.com/rjeczalik/fs/cmd/doc.go" W []%positive;
  expect s_watched "/r/src/github.com/rjeczalik/fs/cmd/mktree/main.go" W [3]%positive;
  expect s_watched "/r/src/github.com/rjeczalik/fs/cmd/mktree/tree.go" C []%positive;
  expect s_watched "/r/src/github.com/pblaszczyk/qttu/include/.lock" C [4]%positive;
  expect s_watched "/r/src/github.com/pblaszczyk/qttu/include/qttu/detail/registry.hh" W [4; 2; 5]%positive;
  expect s_watched "/r/src/github.com/pblaszczyk/qttu/include/qttu" R []%positive;
  expect s_watched "/r/src/github.com/pblaszczyk/qttu/include" R [4]%positive] = true.
Proof. by vm_compute. Qed.

(** TestNonrecursiveTreeInternal *)
Definition watches2 : list (op * list wcall) := [
  (OW "/r/src/github.com/rjeczalik/fs/cmd" true 1 R, [WWatch (b "/r/src/github.com/rjeczalik/fs/cmd") (C .| R); WWatch (b "/r/src/github.com/rjeczalik/fs/cmd/gotree") (C .| R); WWatch (b "/r/src/github.com/rjeczalik/fs/cmd/mktree") (C .| R)]);
  (OW "/r/src/github.com/ppknap/link/include/coost" true 2 C, [WWatch (b "/r/src/github.com/ppknap/link/include/coost") (C); WWatch (b "/r/src/github.com/ppknap/link/include/coost/link") (C); WWatch (b "/r/src/github.com/ppknap/link/include/coost/link/detail") (C); WWatch (b "/r/src/github.com/ppknap/link/include/coost/link/detail/stdhelpers") (C)])].
Example ex_watches2 : (check good_env init_st watches2).2 = true.
Proof. by vm_compute. Qed.
Definition s_watched2 : st := (check good_env init_st watches2).1.
Example ex_events2 : forallb id [
  (let r := recv_of s_watched2 "/r/src/github.com/rjeczalik/fs/cmd/dir" C true in same_keys r.1 (KUser <$> []%positive) && eqb r.2 true);
  (let r := recv_of s_watched2 "/r/src/github.com/rjeczalik/fs/cmd/file" C false in same_keys r.1 (KUser <$> []%positive) && eqb r.2 false);
  (let r := recv_of s_watched2 "/r/src/github.com/ppknap/link/include/coost/dir" C true in same_keys r.1 (KUser <$> [2]%positive) && eqb r.2 true);
  (let r := recv_of s_watched2 "/r/src/github.com/ppknap/link/include/coost/file" C false in same_keys r.1 (KUser <$> [2]%positive) && eqb r.2 false);
  (let r := recv_of s_watched2 "/r/src/github.com/rjeczalik/fs/cmd/mktree" R false in same_keys r.1 (KUser <$> [1]%positive) && eqb r.2 false);
  (let r := recv_of s_watched2 "/r/src/github.com/rjeczalik/fs/cmd/rmtree" C true in same_keys r.1 (KUser <$> []%positive) && eqb r.2 true)] = true.
Proof. by vm_compute. Qed.
(** After [internal] processed the creation of cmd/dir (i=0), i=1 is forwarded too. *)
Definition s_dir : st := nr_internal good_env s_watched2 (EI C (b "/r/src/github.com/rjeczalik/fs/cmd/dir") (Some true) fTypeUnknown).
Example ex_events2b : recv_of s_dir "/r/src/github.com/rjeczalik/fs/cmd/dir/another" C true = ([], true).
Proof. by vm_compute. Qed.
Example ex_dir_watched : (drop (length (st_log s_watched2)) (st_log s_dir)).*1 = [WWatch (b "/r/src/github.com/rjeczalik/fs/cmd/dir") (C .| R)].
Proof. by vm_compute. Qed.
