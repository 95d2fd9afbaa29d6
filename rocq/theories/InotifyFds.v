(** * InotifyFds: the file descriptors of the inotify watcher (/repo/watcher_inotify.go).

    The descriptor table of the whole process, the four fields of the watcher that hold
    descriptor numbers, and the system calls that open, use and close them, one per step.
    Between any two of them the rest of the program opens and closes descriptors of its own.
    Calls of Watch, Rewatch, Unwatch and Close follow each other (the lock of the tree; how
    concurrent calls of lazyinit behave is in InotifyConc.v). *)
From Verif Require Import Base.
Local Open Scope Z_scope.

(** What an open descriptor is: one of the four that the watcher opens, or the program's. *)
Inductive fkind := Ino | Epo | PipR | PipW | App.
Global Instance fkind_eq_dec : EqDecision fkind.
Proof. solve_decision. Defined.
Notation ftab := (gmap Z fkind).
(** A system call on a descriptor, with what the number denotes when it is made. *)
Inductive fcall :=
  | FClose (n : Z) (k : option fkind)                    (* close *)
  | FAdd (e : Z) (ke : option fkind) (n : Z) (k : option fkind)  (* epoll_ctl: add n to e *)
  | FIno (n : Z) (k : option fkind)                      (* inotify_add_watch, inotify_rm_watch, read *)
  | FWait (n : Z) (k : option fkind)                     (* epoll_wait *)
  | FWrite (n : Z) (k : option fkind).                   (* write of one byte *)
(** What close answers: nil, EINTR (the descriptor is closed nevertheless), EBADF. *)
Inductive cerr := EIntr | EBad.
Global Instance cerr_eq_dec : EqDecision cerr.
Proof. solve_decision. Defined.
(** Where the goroutine that executes Watch or Close, or the loop that ends, stands. *)
Inductive fpc :=
  | Rest                                (* no call in progress *)
  | W1 | W2 | W3 | W4                   (* lazyinit: before EpollCreate1, Pipe, EpollCtl, EpollCtl *)
  | F1 | F2 | F3 | F4                   (* lazyinit failed: before closing epfd, pipefd[0], pipefd[1], fd *)
  | C1                                  (* Close waits for the loop *)
  | S1 | S2 (e : option cerr) | S3 (e : option cerr)  (* the loop has closed fd; before closing epfd, pipefd[0], pipefd[1] *)
  | Z1 | Z2 | Z3 | Z4                   (* the finalizer: before closing epfd, pipefd[0], pipefd[1], fd *)
  | Gone                                (* the finalizer is done *)
  | Panicked.
(** [f_fd], [f_ep], [f_pr], [f_pw]: i.fd, i.epfd, i.pipefd (/repo/watcher_inotify.go:45-47), -1 =
    invalidDescriptor.  [f_loop]: the loop runs, and its local fd (:187). *)
Record fdst := FS { f_tab : ftab; f_fd : Z; f_ep : Z; f_pr : Z; f_pw : Z; f_loop : option Z; f_pc : fpc; f_log : list fcall }.
(** newWatcher (:56-63) in a process that has the descriptors [X] open. *)
Definition finit (X : gset Z) : fdst := FS (gset_to_gmap App X) (-1) (-1) (-1) (-1) None Rest [].

(** What a call returns: true = nil. *)
Inductive fout := OWatch (ok : bool) | OClose (ok : bool).
(** How unix.Pipe fails: never; leaving the slice as it is; leaving two zeros in it. *)
Inductive pipefail := PNever | PKeeps | PZeroes.

Section step.
(** [intr]: close may answer EINTR. *)
Context (pf : pipefail) (intr : bool).
(** unix.Close *)
Inductive closes (t : ftab) (n : Z) : ftab → option cerr → Prop :=
  | cl_ok k : t !! n = Some k → closes t n (delete n t) None
  | cl_intr k : t !! n = Some k → intr = true → closes t n (delete n t) (Some EIntr)
  | cl_bad : t !! n = None → closes t n t (Some EBad).
(** One of the three closes of epollclose (:162-179): field [v], first error so far [e]. *)
Inductive cfield (t : ftab) (v : Z) (e : option cerr) (l : list fcall) : ftab → Z → option cerr → list fcall → Prop :=
  | cf_none : v = -1 → cfield t v e l t v e l
  | cf_ok t' : v ≠ -1 → closes t v t' None → cfield t v e l t' (-1) e (l ++ [FClose v (t !! v)])
  | cf_err t' x : v ≠ -1 → closes t v t' (Some x) →
      cfield t v e l t' v (match e with None => Some x | Some _ => e end) (l ++ [FClose v (t !! v)]).
(** A number for a new descriptor. *)
Definition unused (t : ftab) (n : Z) : Prop := 0 ≤ n ∧ t !! n = None.

Inductive fstep : fdst → option fout → fdst → Prop :=
  (* the rest of the program *)
  | fs_open t n fd ep pr pw lo pc l : unused t n →
      fstep (FS t fd ep pr pw lo pc l) None (FS (<[n := App]> t) fd ep pr pw lo pc l)
  | fs_close t n fd ep pr pw lo pc l : t !! n = Some App →
      fstep (FS t fd ep pr pw lo pc l) None (FS (delete n t) fd ep pr pw lo pc l)
  (* watch (:90-105) while there is a descriptor (:114); [ok]: what inotify_add_watch answers;
     also Unwatch of a path that is watched (:355-362) *)
  | fs_watch t fd ep pr pw lo l ok : fd ≠ -1 →
      fstep (FS t fd ep pr pw lo Rest l) (Some (OWatch ok)) (FS t fd ep pr pw lo Rest (l ++ [FIno fd (t !! fd)]))
  (* lazyinit: InotifyInit1 (:118-122) *)
  | fs_noinit t fd ep pr pw lo l : fd = -1 →
      fstep (FS t fd ep pr pw lo Rest l) (Some (OWatch false)) (FS t fd ep pr pw lo Rest l)
  | fs_init t n fd ep pr pw lo l : fd = -1 → unused t n →
      fstep (FS t fd ep pr pw lo Rest l) None (FS (<[n := Ino]> t) n ep pr pw lo W1 l)
  (* epollinit: EpollCreate1 (:144-146) *)
  | fs_noepoll t fd ep pr pw lo l :
      fstep (FS t fd ep pr pw lo W1 l) None (FS t fd (-1) pr pw lo F1 l)
  | fs_epoll t n fd ep pr pw lo l : unused t n →
      fstep (FS t fd ep pr pw lo W1 l) None (FS (<[n := Epo]> t) fd n pr pw lo W2 l)
  (* Pipe (:147-149) *)
  | fs_nopipe t fd ep pr pw lo l : pf ≠ PNever →
      fstep (FS t fd ep pr pw lo W2 l) None
        (match pf with PZeroes => FS t fd ep 0 0 lo F1 l | _ => FS t fd ep pr pw lo F1 l end)
  | fs_pipe t n m fd ep pr pw lo l : unused t n → unused t m → n ≠ m →
      fstep (FS t fd ep pr pw lo W2 l) None (FS (<[m := PipW]> (<[n := PipR]> t)) fd ep n m lo W3 l)
  (* EpollCtl for fd (:154-156) and for the read end of the pipe (:157) *)
  | fs_ctl1 t fd ep pr pw lo l (ok : bool) :
      fstep (FS t fd ep pr pw lo W3 l) None (FS t fd ep pr pw lo (if ok then W4 else F1) (l ++ [FAdd ep (t !! ep) fd (t !! fd)]))
  | fs_noctl2 t fd ep pr pw lo l :
      fstep (FS t fd ep pr pw lo W4 l) None (FS t fd ep pr pw lo F1 (l ++ [FAdd ep (t !! ep) pr (t !! pr)]))
  (* lazyinit goes on to start the loop (:128-133); watch then adds the path (:93) *)
  | fs_ctl2 t fd ep pr pw lo l ok :
      fstep (FS t fd ep pr pw lo W4 l) (Some (OWatch ok))
        (FS t fd ep pr pw (Some fd) Rest (l ++ [FAdd ep (t !! ep) pr (t !! pr); FIno fd (t !! fd)]))
  (* epollinit failed: epollclose, close of fd (:123-127) *)
  | fs_f1 t fd ep pr pw lo l t' v e l' : cfield t ep None l t' v e l' →
      fstep (FS t fd ep pr pw lo F1 l) None (FS t' fd v pr pw lo F2 l')
  | fs_f2 t fd ep pr pw lo l t' v e l' : cfield t pr None l t' v e l' →
      fstep (FS t fd ep pr pw lo F2 l) None (FS t' fd ep v pw lo F3 l')
  | fs_f3 t fd ep pr pw lo l t' v e l' : cfield t pw None l t' v e l' →
      fstep (FS t fd ep pr pw lo F3 l) None (FS t' fd ep pr v lo F4 l')
  | fs_f4 t fd ep pr pw lo l t' e : closes t fd t' e →
      fstep (FS t fd ep pr pw lo F4 l) (Some (OWatch false)) (FS t' (-1) ep pr pw lo Rest (l ++ [FClose fd (t !! fd)]))
  (* the loop waits (:189) and reads (:193) *)
  | fs_wait t fd ep pr pw n pc l :
      fstep (FS t fd ep pr pw (Some n) pc l) None (FS t fd ep pr pw (Some n) pc (l ++ [FWait ep (t !! ep)]))
  | fs_read t fd ep pr pw n pc l :
      fstep (FS t fd ep pr pw (Some n) pc l) None (FS t fd ep pr pw (Some n) pc (l ++ [FIno fd (t !! fd)]))
  (* Close (:369-391) without a descriptor; with one: inotify_rm_watch, write, which may fail *)
  | fs_idle t fd ep pr pw lo l : fd = -1 →
      fstep (FS t fd ep pr pw lo Rest l) (Some (OClose true)) (FS t fd ep pr pw lo Rest l)
  | fs_nowrite t fd ep pr pw lo l : fd ≠ -1 →
      fstep (FS t fd ep pr pw lo Rest l) (Some (OClose false)) (FS t fd ep pr pw lo Rest (l ++ [FIno fd (t !! fd); FWrite pw (t !! pw)]))
  | fs_write t fd ep pr pw lo l : fd ≠ -1 →
      fstep (FS t fd ep pr pw lo Rest l) None (FS t fd ep pr pw lo C1 (l ++ [FIno fd (t !! fd); FWrite pw (t !! pw)]))
  (* the loop wakes up and shuts down (:196-206) *)
  | fs_shut t fd ep pr pw n l t' e : closes t n t' e →
      fstep (FS t fd ep pr pw (Some n) C1 l) None
        (if decide (e = Some EBad) then FS t' fd ep pr pw None Panicked (l ++ [FClose n (t !! n)])
         else FS t' (-1) ep pr pw None S1 (l ++ [FClose n (t !! n)]))
  | fs_s1 t fd ep pr pw lo l t' v e l' : cfield t ep None l t' v e l' →
      fstep (FS t fd ep pr pw lo S1 l) None (FS t' fd v pr pw lo (S2 e) l')
  | fs_s2 t fd ep pr pw lo e0 l t' v e l' : cfield t pr e0 l t' v e l' →
      fstep (FS t fd ep pr pw lo (S2 e0) l) None (FS t' fd ep v pw lo (S3 e) l')
  (* the loop ends; Close returns ([ok]: every inotify_rm_watch succeeded) *)
  | fs_s3 t fd ep pr pw lo e0 l t' v e l' ok : cfield t pw e0 l t' v e l' → e ≠ Some EBad →
      fstep (FS t fd ep pr pw lo (S3 e0) l) (Some (OClose ok)) (FS t' fd ep pr v lo Rest l')
  | fs_s3p t fd ep pr pw lo e0 l t' v l' : cfield t pw e0 l t' v (Some EBad) l' →
      fstep (FS t fd ep pr pw lo (S3 e0) l) None (FS t' fd ep pr v lo Panicked l')
  (* the finalizer (:64-69): only while no loop refers to the watcher *)
  | fs_z0 t fd ep pr pw l :
      fstep (FS t fd ep pr pw None Rest l) None (FS t fd ep pr pw None Z1 l)
  | fs_z1 t fd ep pr pw lo l t' v e l' : cfield t ep None l t' v e l' →
      fstep (FS t fd ep pr pw lo Z1 l) None (FS t' fd v pr pw lo Z2 l')
  | fs_z2 t fd ep pr pw lo l t' v e l' : cfield t pr None l t' v e l' →
      fstep (FS t fd ep pr pw lo Z2 l) None (FS t' fd ep v pw lo Z3 l')
  | fs_z3 t fd ep pr pw lo l t' v e l' : cfield t pw None l t' v e l' →
      fstep (FS t fd ep pr pw lo Z3 l) None (FS t' fd ep pr v lo Z4 l')
  | fs_z4 t fd ep pr pw lo l t' v e l' : cfield t fd None l t' v e l' →
      fstep (FS t fd ep pr pw lo Z4 l) None (FS t' fd ep pr pw lo Gone l').
(** Runs, with what the calls returned. *)
Inductive fsteps : fdst → list fout → fdst → Prop :=
  | fsteps_0 s : fsteps s [] s
  | fsteps_S s o s' os s'' : fsteps s os s' → fstep s' o s'' → fsteps s (os ++ option_list o) s''.
End step.
