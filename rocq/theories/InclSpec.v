(** Specification of include resolution, independent of the search loop. *)
From Verif Require Import Chars InclModel.

Section S.
Variables (cc : CharClass) (path : Type) (E : Env path).

(** A file the tool may point to: one it has parsed, or a local file on disk. *)
Definition reachable (p : path) : Prop :=
  known E (asUrl E p) = true \/ (isLocal E p = true /\ onDisk E (asUrl E p) = true).

(** The candidates for a relative include in order of preference. *)
Definition candidates (inc : qstring) (doc : path) : list path :=
  join E (parentOf E doc) inc
  :: map (fun p => join E p inc) (filter (fun p => inside E p doc) (projects E))
  ++ map (fun p => join E p inc) (projects E).

(** [c] is the first reachable element of [l]. *)
Definition firstReachable (l : list path) (c : path) : Prop :=
  exists before after, l = before ++ c :: after /\ reachable c /\ Forall (fun x => ~ reachable x) before.

(** A text with a scheme in any case. *)
Definition hasScheme (scheme s : qstring) : Prop :=
  exists a b, s = a ++ b /\ map (foldCase cc) a = map (foldCase cc) scheme.
Definition remote (s : qstring) : Prop := hasScheme (str "http://") s \/ hasScheme (str "ftp://") s.
End S.
