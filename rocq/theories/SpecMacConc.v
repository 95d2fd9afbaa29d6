(** * SpecMacConc: what is expected of the macOS watcher under concurrency *)
From Verif Require Import Base Event Paths Node SpecOS Fsev SpecFsev MacConc.
Local Open Scope N_scope.

(** What watch [w] has sent, and the batches its Dispatch was called with, each with the
    set and the kind it loaded, in order. *)
Definition sent_by (s : mst) (w : N) : list (fsevent * N) := snd <$> filter (λ x, x.1 = w) (m_sent s).
Definition begun_by (s : mst) (w : N) : list (N * bool * list fsevent) := snd <$> filter (λ x, x.1.2 = w) (m_begun s).
(** As a history of a watch without concurrency: before each batch the set and the kind
    become the ones that are loaded. *)
Definition as_history (l : list (N * bool * list fsevent)) : list hop :=
  l ≫= λ b, [HSet b.1.1 b.1.2; HBatch b.2].

(** The calls that have returned, with their results, run one after the other on the
    table without streams (whether a stream can be started may differ from call to call). *)
Inductive seq_run : list (wcall * option fserr) → fstab → Prop :=
  | sr_nil : seq_run [] ∅
  | sr_call l m start c m' err : seq_run l m → fs_call start m c = (m', err) → seq_run (l ++ [(c, err)]) m'.
(** The sets and kinds of the watches in the table. *)
Definition view (s : mst) : ostab :=
  omap (λ w, (λ o, (fw_events (o_w o), fw_isrec (o_w o))) <$> m_objs s !! w) (m_tab s).

(** The dispatch queue is running a callback for watch [w]. *)
Definition q_on (q : qpc) (w : N) : Prop :=
  match q with QIdle => False | QFound _ v _ | QEv _ v _ _ | QRun v _ _ _ _ => v = w end.
(** ... and it has not yet loaded the set and the kind. *)
Definition q_loading (q : qpc) (w : N) : Prop :=
  match q with QFound _ v _ | QEv _ v _ _ => v = w | _ => False end.
(** No call is in progress and [w], a watch made earlier, is not in the table: it was
    unwatched, or its stream could not be started. *)
Definition gone (s : mst) (w : N) : Prop :=
  m_call s = None ∧ is_Some (m_objs s !! w) ∧ ∀ p, m_tab s !! p ≠ Some w.
