(** Vocabulary for C70: the type each declaration has by its own syntax. *)
From Verif Require Export RecModel.
Open Scope nat_scope.

(** The type a doc comment's tag gives. *)
Definition tagType (g : tag) : option ty := match g with NoTag => None | ThisTag o => o | TypeTag t => Some t end.
(** A value has the type documented for it, else the one found, else mixed. *)
Definition valueType (v : value) : ty :=
  match tagType (v_tag v) with Some t => t | None => match v_eval v with Some t => t | None => Integral KMixed end end.
(** A property has the type of its hint or, if there is no hint or its class is unknown, the
    documented one; else, with a hint, mixed and, without, that of its value, null if it has no value. *)
Definition property (hint : option (option ty)) (doc : tag) (v : option value) : ty :=
  match hint, tagType doc with
  | Some (Some t), _ => t
  | _, Some t => t
  | Some None, None => Integral KMixed
  | None, None => match v with Some v => valueType v | None => Integral KNull end
  end.
(** A caught exception is an object of the class named, or of one of the classes. *)
Definition caught (cs : list (option ty)) : option ty :=
  match cs with [c] => c | _ => Some (Unsure (fold_left addT (known cs) [])) end.

(** Every declaration of a file with its type, in the order in which they are completed.  A
    foreach's key and a namespace have no type. *)
Definition one (k : sort) (d : N) (t : rty) : list (sort * N * option rty) := [(k, d, Some t)].
Fixpoint types (n : node) : list (sort * N * option rty) :=
  match n with
  | NAssign d isArray v kids => typesL kids ++ one Ordinary d (plainT (if isArray then Integral KArray else valueType v))
  | NStatic d v => one Ordinary d (plainT (match v with Some v => valueType v | None => Integral KMixed end))
  | NReturn v kids => typesL kids
  | NFun d _ _ params body => flat_map (fun p => one Ordinary (fst p) (plainT (snd p))) params ++ typesL body ++ one Ordinary d (plainT (Func d))
  | NClass d ms => typesM ms ++ one Ordinary d (plainT (Struct d))
  | NCatch d classes kids => typesL kids ++ [(Caught, d, option_map plainT (caught classes))]
  | NForeach key val elem kids =>
      typesL kids ++ one Ordinary val (plainT (match elem with Some t => t | None => Integral KMixed end)) ++
      match key with Some k => [(ForeachKey, k, None)] | None => [] end
  | NConsts cs => flat_map (fun c => one Constant (fst c) (valueType (snd c), true)) cs
  | NDefine d v kids => typesL kids ++ match v with Some v => one Constant d (valueType v, true) | None => [(Constant, d, None)] end
  | NNamespace d kids => typesL kids ++ [(NamespaceDecl, d, None)]
  | NOther kids => typesL kids
  end
with typesL (l : nodes) :=
  match l with nil_ => [] | cons_ n l => types n ++ typesL l end
with typesM (l : members) :=
  match l with mnil => [] | mcons m l => typesOf m ++ typesM l end
with typesOf (m : member) :=
  match m with
  | MMethod d _ _ params body => flat_map (fun p => one Ordinary (fst p) (plainT (snd p))) params ++ typesL body ++ one Ordinary d (plainT (Func d))
  | MConsts cs => flat_map (fun c => one Constant (fst c) (valueType (snd c), true)) cs
  | MProps hint doc vs => flat_map (fun p => one Property (fst p) (plainT (property hint doc (snd p)))) vs
  | MTraits ds => flat_map (fun p => one Ordinary (fst p) (plainT (snd p))) ds
  end.
(** The declarations that have a type, and among them those other than constants, properties and
    caught exceptions: variables, parameters, functions, methods and classes. *)
Definition typed (l : list (sort * N * option rty)) : list (sort * N * option rty) :=
  filter (fun e => match fst (fst e) with ForeachKey | NamespaceDecl => false | _ => true end) l.
Definition ordinary (l : list (sort * N * option rty)) : list (sort * N * option rty) :=
  filter (fun e => match fst (fst e) with Ordinary => true | _ => false end) l.

(** Where doc comments are consulted on the way through a file, and where a class's constant or a
    property without hint and documented type takes the type of its own value. *)
Inductive event := Found | Nothing | OwnValue.
Definition look (g : tag) : list event := match tagType g with Some _ => [Found] | None => [Nothing] end.
Definition constEvents (cs : list (N * value)) : list event := flat_map (fun c => OwnValue :: look (v_tag (snd c))) cs.
Fixpoint events (n : node) : list event :=
  match n with
  | NAssign _ _ v kids => look (v_tag v) ++ eventsL kids
  | NStatic _ v => match v with Some v => look (v_tag v) | None => [] end
  | NReturn v kids => eventsL kids ++ match tagType (v_tag v) with Some _ => [Found] | None => [] end
  | NFun _ doc _ _ body => look doc ++ eventsL body
  | NClass _ ms => eventsM ms
  | NCatch _ _ kids => eventsL kids
  | NForeach _ _ _ kids => eventsL kids
  | NConsts cs => flat_map (fun c => look (v_tag (snd c))) cs
  | NDefine _ v kids => eventsL kids ++ match v with Some v => look (v_tag v) | None => [] end
  | NNamespace _ kids => eventsL kids
  | NOther kids => eventsL kids
  end
with eventsL (l : nodes) := match l with nil_ => [] | cons_ n l => events n ++ eventsL l end
with eventsM (l : members) := match l with mnil => [] | mcons m l => eventsOf m ++ eventsM l end
with eventsOf (m : member) :=
  match m with
  | MMethod _ doc _ _ body => look doc ++ eventsL body
  | MConsts cs => constEvents cs
  | MProps None NoTag vs =>
      Nothing :: flat_map (fun p => OwnValue :: match snd p with Some v => look (v_tag v) | None => [] end) vs ++ [Nothing]
  | MProps _ _ _ => [Nothing]
  | MTraits _ => []
  end.
(** No class constant, and no property taking the type of its value, directly follows a doc
    comment that gave a type to something else. *)
Definition undisturbed (l : list event) : Prop := forall a b, l <> a ++ Found :: OwnValue :: b.

(** Caught classes are known when they are caught alone, defined constants have a value, no
    property without hint is documented as [$this], and const statements stand outside of
    functions and classes ([top]), where alone the language has them. *)
Fixpoint complete (top : bool) (n : node) : Prop :=
  match n with
  | NAssign _ _ _ kids => completeL false kids
  | NReturn _ kids | NForeach _ _ _ kids | NNamespace _ kids | NOther kids => completeL top kids
  | NFun _ _ _ _ body => completeL false body
  | NClass _ ms => completeM ms
  | NCatch _ classes kids => completeL top kids /\ classes <> [None]
  | NDefine _ v kids => completeL top kids /\ v <> None
  | NStatic _ _ => True
  | NConsts _ => top = true
  end
with completeL (top : bool) (l : nodes) : Prop := match l with nil_ => True | cons_ n l => complete top n /\ completeL top l end
with completeM (l : members) : Prop := match l with mnil => True | mcons m l => completeOf m /\ completeM l end
with completeOf (m : member) : Prop :=
  match m with
  | MMethod _ _ _ _ body => completeL false body
  | MProps None (ThisTag _) _ => False
  | _ => True
  end.
