(** C69: the rules of the language the builder checks.  [Breaks]: somewhere in the file a rule is
    broken, and there a problem belongs. *)
From Coq Require Import List String Relations.
From Verif Require Import Chars SemModel.
Import ListNotations.
Open Scope nat_scope.

Section Rules.
Variable cc : CharClass.

(** ** Where a piece is *)

(** Nearest around it: nothing but the file, a namespace, a class, a parameter list, the body of a
    function, the declaration of a property or constant. *)
Inductive place := AtTop | InNs | InClass (k : kind) | InParams | InBody | InValue.
(** A piece is a direct part of another. *)
Inductive Part : place * nd -> place * nd -> Prop :=
| pa_part pl l m : In m l -> Part (pl, Parts l) (pl, m)
| pa_yield pl p l m : In m l -> Part (pl, Yield p l) (pl, m)
| pa_callee pl f args m : In m f -> Part (pl, Call f args) (pl, m)
| pa_arg pl f args a : In a args -> Part (pl, Call f args) (pl, aExpr a)
| pa_default pl ps r b q p t e : In q ps -> pDefault q = Some (p, t, e) -> Part (pl, Fun ps r b) (InParams, e)
| pa_body pl ps r b : Part (pl, Fun ps r (Some b)) (InBody, b)
| pa_method pl k p x l f : In (MMethod f) l -> Part (pl, Class k p x l) (InClass k, f)
| pa_prop pl k p x l h vs e : In (MProp h vs) l -> In e vs -> Part (pl, Class k p x l) (InValue, e)
| pa_const pl k p x l cp cn e : In (MConst cp cn e) l -> Part (pl, Class k p x l) (InValue, e)
| pa_head pl h v1 v2 b : Part (pl, Foreach h v1 v2 b) (pl, h)
| pa_v1 pl h v1 v2 b : Part (pl, Foreach h v1 v2 b) (pl, v1)
| pa_v2 pl h v1 v2 b : Part (pl, Foreach h v1 (Some v2) b) (pl, v2)
| pa_loop pl h v1 v2 b : Part (pl, Foreach h v1 v2 b) (pl, b).

(** Behind these statements a namespace without a block is in force. *)
Definition InForce (l : list top) : Prop :=
  exists a parts b, l = a ++ TNamespace parts None :: b /\ parts <> [] /\ forall parts' block, ~ In (TNamespace parts' block) b.
(** A statement of a file. *)
Inductive Stmt (file : list top) : place * nd -> Prop :=
| st_ns a n b : file = a ++ TNode n :: b -> InForce a -> Stmt file (InNs, n)
| st_top a n b : file = a ++ TNode n :: b -> ~ InForce a -> Stmt file (AtTop, n)
| st_block parts l n : In (TNamespace parts (Some l)) file -> parts <> [] -> In n l -> Stmt file (InNs, n)
| st_global l n : In (TNamespace [] (Some l)) file -> In n l -> Stmt file (AtTop, n).
(** The file has the piece [n], at the place [pl]. *)
Definition Has (file : list top) (pl : place) (n : nd) : Prop :=
  exists r, Stmt file r /\ clos_refl_trans_1n _ Part r (pl, n).

(** ** The rules *)

Definition among (s : qstring) (words : list string) : Prop := exists w, In w words /\ eqsCI cc s (str w) = true.
(** Names a class cannot have, and types that are no classes. *)
Definition reserved : list string := ["string"; "bool"; "int"; "float"; "iterable"; "object"; "null"; "true"; "false"]%string.
Definition builtin : list string := ["bool"; "float"; "int"; "string"; "iterable"; "object"; "mixed"]%string.
(** The alternative names a class. *)
Definition ClassHint (h : hint) : Prop :=
  exists p f r, h = HName p f r /\ (r <> [] \/ ~ among f builtin).
(** The hint, at [p], is a class that cannot be: its own name is reserved and no type. *)
Definition BadHint (l : list hint) (p : nat) : Prop :=
  exists f r, l = [HName p f r] /\ among (List.last r f) reserved /\ (r <> [] \/ ~ among f builtin).

Inductive BreaksHere : place -> nd -> why -> nat -> Prop :=
(* a variadic parameter has a default *)
| b_vdef pl ps r b q p t e : In q ps -> pVariadic q = true -> pDefault q = Some (p, t, e) ->
    BreaksHere pl (Fun ps r b) VariadicDefault p
(* a parameter whose type is a class has a default other than null *)
| b_cdef pl ps r b q p t e : In q ps -> pVariadic q = false -> pDefault q = Some (p, t, e) ->
    pHint q <> [] -> (forall h, In h (pHint q) -> ClassHint h) -> eqsCI cc t (str "null") = false ->
    BreaksHere pl (Fun ps r b) ClassDefault p
(* a variadic parameter is not the last one *)
| b_notlast pl ps r b a q q' c : ps = a ++ q :: q' :: c -> pVariadic q = true ->
    BreaksHere pl (Fun ps r b) VariadicNotLast (pPos q)
(* a positional argument stands behind an unpacked one *)
| b_positional pl f args a x b y c : args = a ++ x :: b ++ y :: c -> aUnpacked x = true -> aUnpacked y = false ->
    BreaksHere pl (Call f args) PositionalAfterUnpacked (aPos y)
(* a yield is in no body of a function *)
| b_yield pl p l : pl <> InBody -> BreaksHere pl (Yield p l) YieldOutside p
(* a class, interface or trait has a reserved name *)
| b_name pl k p x l : among x reserved -> BreaksHere pl (Class k p x l) ReservedName p
(* a type of a parameter, result or property is a class with a reserved name *)
| b_hparam pl ps r b q p : In q ps -> BadHint (pHint q) p -> BreaksHere pl (Fun ps r b) ReservedHint p
| b_hret pl ps r b p : BadHint r p -> BreaksHere pl (Fun ps r b) ReservedHint p
| b_hprop pl k p x l h vs q : In (MProp h vs) l -> BadHint h q -> BreaksHere pl (Class k p x l) ReservedHint q
(* a use statement changes nothing: one word, no alias, not in a namespace *)
| b_noeffect pl l u x : In u l -> pl <> InNs -> uGroup u = None -> uAlias u = None -> uParts u = [x] ->
    BreaksHere pl (Use l) NoEffect (uPos u)
(* the name is taken *)
| b_taken pl l u : In u l -> uGroup u = None -> uTaken u = true ->
    (pl = InNs \/ uAlias u <> None \/ List.length (uParts u) <> 1) -> BreaksHere pl (Use l) NameTaken (uPos u)
(* a reserved name is introduced *)
| b_alias pl l u p a : In u l -> uGroup u = None -> uTaken u = false -> uAlias u = Some (p, a) -> among a reserved ->
    BreaksHere pl (Use l) ReservedAlias p
| b_inner pl l u g p a : In u l -> uGroup u = Some g -> In (Some (p, a)) g -> among a reserved ->
    BreaksHere pl (Use l) ReservedAlias p
(* a trait has a constant *)
| b_trait pl p x l cp cn e : In (MConst cp cn e) l -> BreaksHere pl (Class KTrait p x l) TraitConst cp
(* a class constant is called "class" *)
| b_class pl k p x l cp cn e : In (MConst cp cn e) l -> map (toLower cc) cn = str "class" ->
    BreaksHere pl (Class k p x l) ConstClass cp.

Definition Breaks (file : list top) (w : why) (p : nat) : Prop :=
  exists pl n, Has file pl n /\ BreaksHere pl n w p.

(** ** Files the builder gets right altogether *)

(** A hint of one alternative; a name of several parts does not begin with the name of a type. *)
Definition plainHint (l : list hint) : Prop :=
  l = [] \/ (exists h, l = [h] /\ forall p f r, h = HName p f r -> r <> [] -> ~ among f builtin).
Inductive PlainHere : nd -> Prop :=
| pl_parts l : PlainHere (Parts l)
| pl_yield p l : PlainHere (Yield p l)
| pl_call f args : PlainHere (Call f args)
| pl_fun ps r b : plainHint r -> (forall q, In q ps -> plainHint (pHint q)) -> PlainHere (Fun ps r b)
| pl_class k p x l : (forall h vs, In (MProp h vs) l -> plainHint h) -> PlainHere (Class k p x l)
| pl_foreach h v1 v2 b : PlainHere (Foreach h v1 v2 b)
| pl_use l : (forall u, In u l -> uGroup u = None) -> PlainHere (Use l).
Definition Plain (file : list top) : Prop := forall pl n, Has file pl n -> PlainHere n.
End Rules.
