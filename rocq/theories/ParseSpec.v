(** What the parser of php.g has to do, independently of how it does it. *)
From Coq Require Import List Bool.
From Verif Require Import Chars LexModel ParseModel.
Import ListNotations.
Open Scope nat_scope.

(** The tokens of a tree from left to right, with their indexes in the file. *)
Fixpoint leaves (t : tree) : list (Tok * nat) :=
  match t with
  | Leaf k p => [(k, p)]
  | Node _ _ ch _ => flat_map leaves ch
  end.

(** [Derives i ts]: [ts] are the parts of a tree built with the rules of the grammar.  C++ code and
    conditions play no part; the part of a try/rollback can be either of the two. *)
Inductive Derives : item -> list tree -> Prop :=
| D_token : forall k p, Derives (IT k) [Leaf k p]
| D_rule : forall n a ts b, Derives (rule n) ts -> Derives (IN n) [Node n a ts b]
| D_empty : Derives IEps []
| D_seq : forall a b ts us, Derives a ts -> Derives b us -> Derives (ISeq a b) (ts ++ us)
| D_left : forall a b ts, Derives a ts -> Derives (IAlt a b) ts
| D_right : forall a b ts, Derives b ts -> Derives (IAlt a b) ts
| D_cond : forall c a ts, Derives a ts -> Derives (ICond c a) ts
| D_none : forall a, Derives (IStar a) []
| D_more : forall a ts us, Derives a ts -> Derives (IStar a) us -> Derives (IStar a) (ts ++ us)
| D_last : forall a sep brk ts, Derives a ts -> Derives (IList a sep brk) ts
| D_trailing : forall a sep b ts p, Derives a ts -> Derives (IList a sep (Some b)) (ts ++ [Leaf sep p])
| D_next : forall a sep brk ts p us, Derives a ts -> Derives (IList a sep brk) us ->
    Derives (IList a sep brk) (ts ++ Leaf sep p :: us)
| D_try : forall a b ts, Derives a ts -> Derives (IRollback a b) ts
| D_catch : forall a b ts, Derives b ts -> Derives (IRollback a b) ts
| D_recover : forall n ts, Derives (IN n) ts -> Derives (IRecover n) ts
| D_act : forall x, Derives (IAct x) []
| D_loop : forall a stop ts, Derives a ts -> Derives (ILoop a stop) ts
| D_again : forall a stop ts, Derives a ts -> Derives (ILoopAgain a stop) ts
| D_peek : forall k, Derives (IPeek k) [].

(** A tree for the tokens [ts] of a file: a derivation whose tokens are [ts], in order, none left
    out. *)
Definition treeOf (ts : list Tok) (t : tree) : Prop :=
  Derives (IN n_start) [t] /\ leaves t = combine ts (seq 0 (List.length ts)).

(** All the nodes of a tree: start, parts and the index behind the end. *)
Fixpoint nodes (t : tree) : list (nat * list tree * nat) :=
  match t with
  | Leaf _ _ => []
  | Node _ a ch b => (a, ch, b) :: flat_map nodes ch
  end.

(** Where the tokens and nodes of a tree lie: every token is where it stands in the file, tokens
    are in the order of the file, and a node lies around its tokens and around the nodes in it. *)
Fixpoint ascending (l : list nat) : Prop :=
  match l with
  | x :: ((y :: _) as r) => x < y /\ ascending r
  | _ => True
  end.
Definition wellPlaced (ts : list Tok) (t : tree) : Prop :=
  (forall k p, In (k, p) (leaves t) -> nth_error ts p = Some k)
  /\ ascending (map snd (leaves t))
  /\ (forall a ch b, In (a, ch, b) (nodes t) ->
        a <= b <= List.length ts
        /\ (forall k p, In (k, p) (flat_map leaves ch) -> a <= p < b)
        /\ (forall a' ch' b', In (a', ch', b') (flat_map nodes ch) -> a <= a' /\ b' <= b)).

(** A problem that is an error. *)
Definition isError (p : problem) : bool := match pr_sev p with SevError => true | SevWarning => false end.

(** No [function (] and no [function & (] in the file. *)
Definition noClosure (ts : list Tok) : Prop :=
  forall pre post, ts <> pre ++ T_FUNCTION :: T_LPAREN :: post
                /\ ts <> pre ++ T_FUNCTION :: T_BIT_AND :: T_LPAREN :: post.

(** The same tree [d] tokens further down the file. *)
Fixpoint shift (d : nat) (t : tree) : tree :=
  match t with
  | Leaf k p => Leaf k (p + d)
  | Node n a ch b => Node n (a + d) (map (shift d) ch) (b + d)
  end.

(** The text of a function whose body is [body], and bodies without braces and without the words that
    end a list of statements. *)
Definition functionWith (body : list Tok) : list Tok :=
  [T_FUNCTION; T_STRING; T_LPAREN; T_RPAREN; T_LBRACE] ++ body ++ [T_RBRACE].
Definition noBraces (body : list Tok) : Prop :=
  forall k, In k body ->
  ~ In k [T_LBRACE; T_CURLY_OPEN; T_DOLLAR_OPEN_CURLY_BRACES; T_RBRACE; T_EOF; T_CLOSE_TAG; T_ELSEIF; T_ELSE; T_ENDIF;
          T_ENDFOREACH; T_ENDFOR; T_ENDWHILE; T_ENDSWITCH; T_ENDDECLARE; T_CASE; T_DEFAULT].
