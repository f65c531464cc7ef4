(** C17: what the parser's token stream is, in terms of the lexer's tokens. *)
From Verif Require Export TokModel.
Open Scope nat_scope.

Definition blankTok (t : Token) : Prop :=
  t_kind t = T_WHITESPACE \/ t_kind t = T_COMMENT \/ t_kind t = T_DOC_COMMENT.

(** [d] is the text of the last doc comment of the blanks [ws], or empty without one. *)
Definition lastDoc (content : qstring) (ws : list Token) (d : qstring) : Prop :=
  (d = [] /\ Forall (fun t => t_kind t <> T_DOC_COMMENT) ws) \/
  (exists a t b, ws = a ++ t :: b /\ t_kind t = T_DOC_COMMENT /\
     Forall (fun t => t_kind t <> T_DOC_COMMENT) b /\ d = symbol content t).

(** The stream: each significant token once, in order, with the doc comment in front of it;
    one end marker. *)
Inductive streamOf (content : qstring) : list Token -> list PTok -> Prop :=
| so_end ws p : Forall blankTok ws -> p_kind p = T_EOF -> lastDoc content ws (docComment content p) ->
    streamOf content ws [p]
| so_tok ws t ts p ps : Forall blankTok ws -> ~ blankTok t ->
    p_kind p = t_kind t -> psymbol content p = symbol content t -> p_begin p = t_begin t -> p_end p = t_end t ->
    lastDoc content ws (docComment content p) ->
    streamOf content ts ps -> streamOf content (ws ++ t :: ts) (p :: ps).
