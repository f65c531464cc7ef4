(** Specification for C46 and C55. *)
From Verif Require Import Chars DocsModel.

(** The superglobals of the PHP manual. *)
Definition superglobals : list string :=
  ["GLOBALS"; "_SERVER"; "_GET"; "_POST"; "_FILES"; "_COOKIE"; "_SESSION"; "_REQUEST"; "_ENV"]%string.
(** Declarations that the property speaks of. *)
Inductive documented : Decl -> Prop :=
| dc_method cls ctor dtor n : documented {| dKind := KMethod (Some cls) ctor dtor; dName := n |}
| dc_class n : documented {| dKind := KClass; dName := n |}
| dc_function n : documented {| dKind := KFunction; dName := n |}
| dc_global n : In n superglobals -> documented {| dKind := KOther; dName := str n |}.
(** A character that a lower-cased local page name may have: nothing changes by lower-casing it,
    and it is no underscore. *)
Definition localChar (cc : CharClass) (c : N) : Prop := toLower cc c = c /\ c <> cUNDERSCORE.
(** Lower-casing is idempotent (Unicode). *)
Definition lowerIdem (cc : CharClass) : Prop := forall c, toLower cc (toLower cc c) = toLower cc c.
(** [f] is [base] in lower case, with "-" for "_" and the suffix ".html". *)
Definition pageOf (cc : CharClass) (base f : qstring) : Prop :=
  exists body, f = body ++ str ".html" /\ List.length body = List.length base /\
    forall i c, nth_error base i = Some c ->
      exists c', nth_error body i = Some c' /\ (toLower cc c = cUNDERSCORE -> c' = cMINUS) /\ (toLower cc c <> cUNDERSCORE -> c' = toLower cc c).

(** Rows that an update with declarations [top] adds. *)
Inductive rowsFor {D} : list (Entry D) -> list D -> Prop :=
| rf_nil : rowsFor [] []
| rf_const e top rows : eConst e = true -> rowsFor top rows -> rowsFor (e :: top) rows
| rf_plain e top rows : eConst e = false -> eMembers e = None -> rowsFor top rows -> rowsFor (e :: top) (eDecl e :: rows)
| rf_class e members top rows : eConst e = false -> eMembers e = Some members -> rowsFor top rows ->
    rowsFor (e :: top) (eDecl e :: members ++ rows).
