(** Parse jobs and rescheduling (phpparsejob.cpp). *)
From Coq Require Export List NArith ZArith Bool Lia.
Export ListNotations.

(** KDevelop::TopDUContext::Features (platform) as bit sets, and phpparsejob.h 33-35. *)
Definition VisibleDeclarationsAndContexts : N := 6.
Definition AllDeclarationsContextsAndUses : N := 30.
Definition AllDeclarationsContextsUsesAndAST : N := 62.
Definition Rescheduled : N := 512.
(** KDevelop::BackgroundParser::WorstPriority (platform); larger is worse. *)
Definition WorstPriority : Z := 40000.

Definition has (f g : N) : bool := negb (N.eqb (N.land f g) 0).

(** What a run meets: whether the document needs an update, can be read, parses; the features
    stored so far; whether the declaration and use builders leave unresolved identifiers; at which
    of the checks (in source order) an abort is seen; whether it is the file of internal
    functions. *)
Record Meets := { updateRequired : bool; readable : bool; parses : bool; old : option N;
                  declUnresolved : bool; useUnresolved : bool;
                  abort1 : bool; abort2 : bool; abort3 : bool; abort4 : bool; internal : bool }.

(** Observable outcome: request handed to the background parser, features stored, whether
    updateReady is emitted. *)
Record Outcome := { requeued : option (N * Z); stored : option N; ready : bool; aborted : bool }.
Definition nothing : Outcome := {| requeued := None; stored := None; ready := false; aborted := false |}.
Definition abortJob (q : option (N * Z)) : Outcome := {| requeued := q; stored := None; ready := false; aborted := true |}.

(** phpparsejob.cpp 62-207; [features], [priority]: minimumFeatures() and parsePriority().
    Not modelled: the one-time load of the internal function file (64-73), locks, problems and
    highlighting. *)
Definition run (features : N) (priority : Z) (m : Meets) : Outcome :=
  if negb (has features Rescheduled) && negb (updateRequired m) then nothing          (* 77-79 *)
  else if negb (readable m) then abortJob None                                         (* 82-86 *)
  else if abort1 m then abortJob None                                                  (* 97-99 *)
  else
    let newFeatures := N.land (match old m with Some f => N.lor features f | None => features end)
                              AllDeclarationsContextsUsesAndAST in                     (* 107-112 *)
    if parses m then
      if abort2 m then abortJob None                                                   (* 115-117 *)
      else if abort3 m then abortJob None                                              (* 126-128 *)
      else
        let unresolved := declUnresolved m ||
              (has newFeatures AllDeclarationsContextsAndUses && negb (internal m) && useUnresolved m) in
        let q := if unresolved then
                   if negb (has features Rescheduled) then
                     Some (N.lor (N.lor features VisibleDeclarationsAndContexts) Rescheduled,
                           Z.min (priority + 100) WorstPriority)
                   else None
                 else None in                                                          (* 132-159 *)
        if abort4 m then abortJob q                                                    (* 161-167 *)
        else {| requeued := q; stored := Some newFeatures; ready := true; aborted := false |}
    else {| requeued := None; stored := None; ready := true; aborted := false |}.      (* 183-206 *)

(** The background parser (platform) for one document: requests for a document that waits are
    merged (features joined, best priority); a waiting document is started when no job runs for
    it. *)
Record Queue := { waiting : option (N * Z); running : option (N * Z) }.
Definition addDocument (q : Queue) (f : N) (p : Z) : Queue :=
  {| waiting := match waiting q with
                | None => Some (f, p)
                | Some (f0, p0) => Some (N.lor f0 f, Z.min p0 p)
                end; running := running q |}.
Inductive Event := Request (f : N) (p : Z) | Start | Finish (m : Meets).
(** One step; the flag says that the job re-queued the document. *)
Definition step (q : Queue) (e : Event) : Queue * bool :=
  match e with
  | Request f p => (addDocument q f p, false)
  | Start => match waiting q, running q with
             | Some j, None => ({| waiting := None; running := Some j |}, false)
             | _, _ => (q, false)
             end
  | Finish m => match running q with
                | None => (q, false)
                | Some (f, p) =>
                    let q' := {| waiting := waiting q; running := None |} in
                    match requeued (run f p m) with
                    | None => (q', false)
                    | Some (f', p') => (addDocument q' f' p', true)
                    end
                end
  end.
Fixpoint history (q : Queue) (l : list Event) : Queue * list bool :=
  match l with
  | [] => (q, [])
  | e :: r => let (q', b) := step q e in let (q'', bs) := history q' r in (q'', b :: bs)
  end.
Definition idle : Queue := {| waiting := None; running := None |}.
