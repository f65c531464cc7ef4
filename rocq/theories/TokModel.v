(** The parser's token stream (parser/php.g, parser/tokenstream.h, parser/parsesession.cpp). *)
From Verif Require Export LexModel LexSpec.
Open Scope nat_scope.

(** Php::Token, tokenstream.h 15-20 (kind, begin and end from KDevPG::Token). *)
Record PTok := { p_kind : Tok; p_begin : Z; p_end : Z; p_docBegin : Z; p_docEnd : Z }.

(** Outcome of the loops; [fuel] bounds the number of calls of the lexer. *)
Inductive PRun := PDone (ts : list PTok) | POutOfFuel.

(** Parser::tokenize, php.g 1205-1243.  [db], [de] are lastDocCommentBegin/End: the do-loop
    starts every round with 0, 0; the while-loop inside it passes over blanks and comments.
    The lexer's 0 and Parser::Token_EOF are both [T_EOF].  Left out: extractTodosFromComment
    (reports only), and the look-ahead call at the end, which does not change the stream.
    [None]: undefined behaviour in the lexer. *)
Fixpoint tokenize (cc : CharClass) (fuel : nat) (content : qstring) (l : LexState) (db de : Z) : option PRun :=
  match fuel with
  | O => Some POutOfFuel
  | S f =>
      match nextToken cc content l with
      | None => None
      | Some (l', t, _) =>
          match t_kind t with
          | T_WHITESPACE | T_COMMENT => tokenize cc f content l' db de
          | T_DOC_COMMENT => tokenize cc f content l' (t_begin t) (t_end t)
          | k =>
              let p := {| p_kind := k; p_begin := t_begin t; p_end := t_end t; p_docBegin := db; p_docEnd := de |} in
              if isEOF k then Some (PDone [p])
              else match tokenize cc f content l' 0%Z 0%Z with
                   | Some (PDone ps) => Some (PDone (p :: ps))
                   | r => r
                   end
          end
      end
  end.

(** ParseSession::docComment, parsesession.cpp 154-159 *)
Definition docComment (content : qstring) (p : PTok) : qstring :=
  if (p_docEnd p =? 0)%Z then [] else mid content (p_docBegin p) (p_docEnd p - p_docBegin p + 1).

(** ParseSession::symbol(token), parsesession.cpp 141-145 *)
Definition psymbol (content : qstring) (p : PTok) : qstring :=
  mid content (p_begin p) (p_end p - p_begin p + 1).
