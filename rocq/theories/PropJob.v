(** C43: rescheduling. *)
From Verif Require Import JobModel JobProofs.

(** A re-queued parse never re-queues the file again. *)
Theorem C43_once f p m f' p' m' : requeued (run f p m) = Some (f', p') -> requeued (run f' p' m') = None.
Proof. exact (requeue_once f p m f' p' m'). Qed.
Print Assumptions C43_once.
(** A file is re-queued exactly when a parse that is not itself a re-queued one needs an update,
    reads and parses the file without being aborted, and leaves unresolved identifiers (those of
    uses count when uses are wanted or were there before). *)
Theorem C43_when f p m : (exists q, requeued (run f p m) = Some q) <->
  has f Rescheduled = false /\ updateRequired m = true /\ readable m = true /\ parses m = true /\
  abort1 m = false /\ abort2 m = false /\ abort3 m = false /\
  (declUnresolved m = true \/
   (useUnresolved m = true /\ internal m = false /\
    (has f AllDeclarationsContextsAndUses = true \/ exists g, old m = Some g /\ has g AllDeclarationsContextsAndUses = true))).
Proof. exact (requeue_exact f p m). Qed.
Print Assumptions C43_when.
(** The new priority is at most the worst and never better than the old. *)
Theorem C43_priority f p m f' p' : requeued (run f p m) = Some (f', p') ->
  (p' <= WorstPriority /\ (p <= WorstPriority -> p <= p') /\ (p + 100 <= WorstPriority -> p' = p + 100))%Z.
Proof. intros H. apply run_requeued in H. destruct H as (_ & _ & -> & _). lia. Qed.
Print Assumptions C43_priority.
(** The request asks for everything the job was asked for. *)
Theorem C43_features f p m f' p' i : requeued (run f p m) = Some (f', p') -> N.testbit f i = true -> N.testbit f' i = true.
Proof. intros H. apply run_requeued in H. destruct H as (_ & -> & _). intros X. now rewrite !N.lor_spec, X. Qed.
Print Assumptions C43_features.
(** The stored features are those asked for or stored before, and nothing but features. *)
Theorem C43_stored f p m s i : stored (run f p m) = Some s ->
  N.testbit s i = N.testbit AllDeclarationsContextsUsesAndAST i &&
    (N.testbit f i || match old m with Some g => N.testbit g i | None => false end).
Proof. exact (stored_spec f p m s i). Qed.
Print Assumptions C43_stored.
Theorem C43_no_flags f p m s : stored (run f p m) = Some s ->
  N.land s (N.lnot AllDeclarationsContextsUsesAndAST 64) = 0%N /\ has s Rescheduled = false.
Proof. exact (stored_no_flags f p m s). Qed.
Print Assumptions C43_no_flags.
(** Features are stored exactly by a run that was needed, read and parsed the file and was never
    aborted; listeners are told exactly when it was not aborted. *)
Theorem C43_finishes f p m : (exists s, stored (run f p m) = Some s) <->
  (has f Rescheduled = true \/ updateRequired m = true) /\ readable m = true /\ parses m = true /\
  abort1 m = false /\ abort2 m = false /\ abort3 m = false /\ abort4 m = false.
Proof. exact (stored_exact f p m). Qed.
Print Assumptions C43_finishes.
Theorem C43_ready f p m : ready (run f p m) = true <->
  (has f Rescheduled = true \/ updateRequired m = true) /\ readable m = true /\ abort1 m = false /\
  (parses m = true -> abort2 m = false /\ abort3 m = false /\ abort4 m = false).
Proof. exact (ready_exact f p m). Qed.
Print Assumptions C43_ready.
(** In every history of requests and runs of a document there are at most as many re-queueings as
    requests, so without further requests re-queueing stops. *)
Theorem C43_history l q bs : history idle l = (q, bs) -> (count bs <= length (filter isRequest l))%nat.
Proof. exact (requeues_bounded l q bs). Qed.
Print Assumptions C43_history.
Theorem C43_quiet l q q' bs : history q l = (q', bs) -> filter isRequest l = [] -> (count bs <= 2)%nat.
Proof. exact (quiet_without_requests l q q' bs). Qed.
Print Assumptions C43_quiet.

Definition unres : Meets := {| updateRequired := true; readable := true; parses := true; old := Some 6%N; declUnresolved := true;
  useUnresolved := true; abort1 := false; abort2 := false; abort3 := false; abort4 := false; internal := false |}.
Example C43_nontrivial :
  requeued (run 30 0 unres) = Some (542%N, 100%Z) /\ stored (run 542 100 unres) = Some 30%N /\
  snd (history idle [Request 30 0; Start; Finish unres; Start; Finish unres; Request 30 0; Start; Finish unres]) =
    [false; false; true; false; false; false; false; true].
Proof. repeat split. Qed.
