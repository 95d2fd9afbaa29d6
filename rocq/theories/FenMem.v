(** * FenMem: the C memory and the event port below the FEN watcher
    (/repo/watcher_fen_cgo.go), and the monitor goroutine. *)
From Verif Require Import Base Event Paths Clean Trigger FenGen.
Local Open Scope N_scope.

Notation addr := positive.
(** The heap: the file_obj structures that are allocated, with their names (the name is a
    block of its own, allocated and freed together with the structure); [fm_n] counts the
    allocations.  p2fo: /repo/watcher_fen_cgo.go:55-58 (p2pe is never used).
    The event port: an association belongs to the address it was made with and holds the
    name and the mask; a report ends it and waits in the queue.  [fm_bad]: what was freed
    without being allocated. *)
Record fmem := FMem {
  fm_n : nat;
  fm_live : gmap addr str;
  fm_p2fo : gmap str addr;
  fm_assoc : gmap addr (str * N);
  fm_queue : list (addr * N);
  fm_bad : list addr;
}.
Definition fm_init : fmem := FMem 0 ∅ ∅ ∅ [] [].
(** malloc(3) *)
Notation malloc := (nat → gset addr → addr).
Definition malloc_ok (mal : malloc) : Prop := ∀ n X, mal n X ∉ X.

(** portAssociate (/repo/watcher_fen_cgo.go:71-80): what was in p2fo is forgotten. *)
Definition m_associate (mal : malloc) (m : fmem) (A : answers) (p : str) (e : N) : fmem * res :=
  let a := mal (fm_n m) (dom (fm_live m)) in
  let m := FMem (S (fm_n m)) (<[a := p]> (fm_live m)) (<[p := a]> (fm_p2fo m)) (fm_assoc m) (fm_queue m) (fm_bad m) in
  match a_watch A p with
  | SOk => (FMem (fm_n m) (fm_live m) (fm_p2fo m) (<[a := (p, e)]> (fm_assoc m)) (fm_queue m) (fm_bad m), ROk)
  | x => (m, res_of x)
  end.
(** free(3) *)
Definition m_free (m : fmem) (a : addr) : fmem :=
  FMem (fm_n m) (delete a (fm_live m)) (fm_p2fo m) (fm_assoc m) (fm_queue m)
    (match fm_live m !! a with Some _ => fm_bad m | None => a :: fm_bad m end).
(** port_dissociate(3C): it ends the association and discards a report of it that waits; it
    fails with ENOENT if there is neither. *)
Definition m_port_dissociate (m : fmem) (a : addr) : fmem * res :=
  (FMem (fm_n m) (fm_live m) (fm_p2fo m) (delete a (fm_assoc m)) (filter (λ x, x.1 ≠ a) (fm_queue m)) (fm_bad m),
   if bool_decide (is_Some (fm_assoc m !! a) ∨ a ∈ (fm_queue m).*1) then ROk else RNotExist).
(** portDissociate (/repo/watcher_fen_cgo.go:82-92): the memory is freed whatever the result. *)
Definition m_dissociate (m : fmem) (A : answers) (p : str) : fmem * res :=
  match fm_p2fo m !! p with
  | None => (m, RNotWatched)
  | Some a =>
      let '(m, r) := match a_unwatch A p with SOk => m_port_dissociate m a | x => (m, res_of x) end in
      let m := m_free m a in
      (FMem (fm_n m) (fm_live m) (delete p (fm_p2fo m)) (fm_assoc m) (fm_queue m) (fm_bad m), r)
  end.

(** ** The whole: callers, the OS and the monitor *)
(** The monitor (/repo/watcher_trigger.go:399-416 and portGet, /repo/watcher_fen_cgo.go:108-120)
    waits, has been handed an event by port_get(3C), or has read the name in it (cfo2fo,
    /repo/watcher_fen_cgo.go:98-106).  None of this is under the watcher's lock. *)
Inductive mon := MIdle | MGot (a : addr) (ge : N) | MHas (p : str) (ge : N).
(** [f_stale]: the addresses read from although not allocated. *)
Record fsys := FSys { f_g : gst fmem; f_mon : mon; f_stale : list addr }.
Definition f_init : fsys := FSys (GS ∅ ∅ 0 fm_init) MIdle [].
Definition f_mem (s : fsys) : fmem := g_nat (f_g s).
Definition set_mem (s : fsys) (m : fmem) : fsys := FSys (g_set_nat (f_g s) m) (f_mon s) (f_stale s).
(** Conditions reported whether or not they are asked for (/repo/watcher_fen.go:137-142) *)
Definition fen_always : N := FileDelete .| FileRenameTo .| FileRenameFrom .| Unmounted .| MountedOver.
Definition hit (p : str) (ge : N) (x : addr * (str * N)) : Prop := x.2.1 = p ∧ ge .& (x.2.2 .| fen_always) ≠ 0.
#[global] Instance hit_dec p ge x : Decision (hit p ge x).
Proof. unfold hit. apply _. Defined.
Inductive flabel :=
  | FWatch (st : option bool) (A : answers) (p : str) (e : N) (r : res)
  | FUnwatch (st : option bool) (A : answers) (p : str) (r : res)
  | FRewatch (st : option bool) (A A' : answers) (p : str) (e : N) (r : res)
  | FChange (p : str) (ge : N) (hits : list (addr * (str * N)))
  | FGet (a : addr) (ge : N)
  | FRead (p : str) (ge : N)
  | FProcess (st : option bool) (A : answers) (ord : list str) (p : str) (ge : N) (evn : list tevent).
Inductive fstep (mal : malloc) (s : fsys) : flabel → fsys → Prop :=
  (* the calls of the tree, each under the lock *)
  | fs_watch st A p e g r : g_trg_Watch (m_associate mal) (f_g s) st A p e = (g, r) →
      fstep mal s (FWatch st A p e r) (FSys g (f_mon s) (f_stale s))
  | fs_unwatch st A p g r : g_trg_Unwatch (m_associate mal) m_dissociate (f_g s) st A p = (g, r) →
      fstep mal s (FUnwatch st A p r) (FSys g (f_mon s) (f_stale s))
  | fs_rewatch st A A' p e g r : g_trg_Rewatch (m_associate mal) m_dissociate (f_g s) st A A' p e = (g, r) →
      fstep mal s (FRewatch st A A' p e r) (FSys g (f_mon s) (f_stale s))
  (* [ge] happens to the file [p]: every association for it that is about [ge] reports, in any order *)
  | fs_change p ge hits : hits ≡ₚ filter (hit p ge) (map_to_list (fm_assoc (f_mem s))) →
      fstep mal s (FChange p ge hits)
        (set_mem s (FMem (fm_n (f_mem s)) (fm_live (f_mem s)) (fm_p2fo (f_mem s))
           (filter (λ x, ¬ hit p ge x) (fm_assoc (f_mem s)))
           (fm_queue (f_mem s) ++ ((λ x, (x.1, ge .& (x.2.2 .| fen_always))) <$> hits)) (fm_bad (f_mem s))))
  (* port_get returns *)
  | fs_get a ge q : f_mon s = MIdle → fm_queue (f_mem s) = (a, ge) :: q →
      fstep mal s (FGet a ge)
        (FSys (f_g (set_mem s (FMem (fm_n (f_mem s)) (fm_live (f_mem s)) (fm_p2fo (f_mem s)) (fm_assoc (f_mem s)) q (fm_bad (f_mem s)))))
           (MGot a ge) (f_stale s))
  (* the name is read; what is found in memory that is not allocated is arbitrary *)
  | fs_read a ge p : f_mon s = MGot a ge → (∀ q, fm_live (f_mem s) !! a = Some q → p = q) →
      fstep mal s (FRead p ge) (FSys (f_g s) (MHas p ge) (match fm_live (f_mem s) !! a with Some _ => f_stale s | None => a :: f_stale s end))
  (* process, under the lock *)
  | fs_process st A ord p ge g evn : f_mon s = MHas p ge → ord ≡ₚ (map_to_list (g_path (f_g s))).*1 →
      g_process (m_associate mal) m_dissociate (f_g s) st A ord p ge = (g, evn) →
      fstep mal s (FProcess st A ord p ge evn) (FSys g MIdle (f_stale s)).
Inductive fexec : list flabel → fsys → Prop :=
  | fx_init : fexec [] f_init
  | fx_step tr s mal l s' : fexec tr s → malloc_ok mal → fstep mal s l s' → fexec (tr ++ [l]) s'.
