(** C71: choosing a member to override. *)
From Coq Require Import List Bool.
From Verif Require Import ClsModel ClsSpec HelpSpec OvrModel OvrSpec OvrProofs3.
From Verif Require Import Chars LexModel TokModel ParseModel SrcSpec PexSpec StSpec OvrSpec2 OvrProofs5 OvrCase.
Import ListNotations.
Open Scope nat_scope.

(** The typed modifiers and the word [w] are replaced by the text of the member ([front], [written] in OvrSpec): the rest of
    the document stays.  [api]: see [StartIs]. *)
Theorem C71_text : forall cc api pre w post t h mods kept line ind rest after,
  ascii_ok cc -> spacesAreNoLetters cc -> m_isMember (t_member t) = true ->
  List.length (t_defaults t) <= List.length (t_params t) -> (t_special t = true -> t_pretty t <> None) ->
  typedBehind cc pre mods kept -> pre ++ w ++ post = front api pre kept ++ after ->
  lineIn (front api pre kept) after line -> indented cc line ind rest ->
  exists ws, header mods t h ws /\
    implement cc api (pre ++ w ++ post) (typed origin pre) (typed origin (pre ++ w)) t h =
    Some (front api pre kept ++ written ind rest ws t (functionName t) h ++ post).
Proof.
  intros cc api pre w post t h mods kept line ind rest after OK SP M L SPE TB EA LI HI.
  exact (ex_intro _ _ (conj (words_header mods t h M) (implemented cc api pre w post t h mods kept line ind rest OK SP M L SPE TB after EA LI HI))).
Qed.
Print Assumptions C71_text.

(** Of every member that is offered (C36), the modifiers written are those of a member that may override it. *)
Theorem C71_modifiers : forall w pub cur c mods l m h t, nth_error w cur = Some c -> ownFirst l ->
  In (m, h) (snd (classMemberItems w pub cur mods l)) -> t_member t = m ->
  ~ (In WPublic mods /\ In WProtected mods) -> forall ws, header mods t h ws -> mayOverride ws m.
Proof. exact offered_overrides. Qed.
Print Assumptions C71_modifiers.

(** The new document is parsed as the class with the method in it.  [ms1]: the members before the cursor, [ms2] those behind.
    Missing: [function] typed without all the other modifiers (see C71_function_refuted); members with references, variadic
    parameters or return types, which the text does not say; what C65 and C68 miss. *)
Theorem C71_program_partial : forall d cc api pre w post t h mods kept k0 w0 tb pb p1 ta (F1 F2 : list (@fi (closures d))) hd ms1 ms2 xs,
  ascii_ok cc -> spacesAreNoLetters cc -> spaceNotLetter cc ->
  m_isMember (t_member t) = true -> h <> OverrideVar -> (t_special t = true -> t_pretty t <> None) ->
  plainName cc (functionName t) -> List.length (t_defaults t) <= List.length (t_params t) ->
  Forall2 (fun pd x => paramIs cc (fst pd) (snd pd) x) (withDefaults (t_params t) (t_defaults t)) xs ->
  typedBehind cc pre mods kept ->
  (In WFunction mods -> (In WPublic mods \/ In WProtected mods) /\ (In WStatic mods \/ m_static (t_member t) = false)) ->
  front api pre kept = k0 ++ w0 -> allBlank cc w0 -> fileFront cc k0 tb ->
  post = pb ++ p1 -> allBlank cc pb -> noBlank cc p1 -> SrcSpec.spells cc inCode ta p1 ->
  map fst tb = sourceOf F1 ++ headText hd ++ T_LBRACE :: membersText ms1 ->
  map fst ta = membersText ms2 ++ T_RBRACE :: sourceOf F2 ->
  forallb fiOk (F1 ++ FSt (SClass hd (ms1 ++ ms2)) :: F2) = true ->
  exists ws doc', header mods t h (ws ++ [WFunction]) /\
    implement cc api (pre ++ w ++ post) (typed origin pre) (typed origin (pre ++ w)) t h = Some doc' /\
    forall g, exists tr n,
      sourceRead tr = Some (F1 ++ FSt (SClass hd (ms1 ++ [methodIs ws xs (bodyOf t h)] ++ ms2)) :: F2) /\
      forall f, n <= f -> exists ps e,
        tokenize cc f doc' initHtml 0 0 = Some (PDone (ps ++ [e])) /\ p_kind e = T_EOF /\
        parseFile g f (map p_kind ps) = Some (Accepted tr []).
Proof. exact method_read. Qed.
Print Assumptions C71_program_partial.

(** With only [function] typed, the access is written behind it. *)
Theorem C71_function_refuted : exists doc', implement asciiCC TheCursor (classFront ++ [cNL] ++ str "  function ge }")
    (typed origin (classFront ++ [cNL] ++ str "  function ")) (typed origin (classFront ++ [cNL] ++ str "  function ge")) getIt Override = Some doc' /\
  exists a b, doc' = a ++ str "function public getIt(" ++ b.
Proof. exact function_first. Qed.
Print Assumptions C71_function_refuted.
(** Behind [public function] a property is offered. *)
Theorem C71_property_refuted : exists doc',
  In (t_member propX, OverrideVar) (snd (classMemberItems twoClasses (fun a b => Nat.leb b a) 1 (getMethodTokens asciiCC fnPre) [(t_member propX, 1)])) /\
  implement asciiCC TheCursor (fnPre ++ str "x }") (typed origin fnPre) (typed origin (fnPre ++ str "x")) propX OverrideVar = Some doc' /\
  exists a, doc' = a ++ str "public function $x =  }".
Proof. exact property_function. Qed.
Print Assumptions C71_property_refuted.
(** Where KTextEditor::Range::start() is a copy, the typed modifiers stay in the document and are written again. *)
Theorem C71_copy_refuted : implement asciiCC ACopy (typedPre ++ str "ge }") (typed origin typedPre) (typed origin (typedPre ++ str "ge")) getIt Implement =
  Some (lines [str "<?php class B extends A {"; str "    public "; str "    public function getIt(A $a, $b = 1)"; str "    {"; str "        "; str "    }"] ++ str "     }").
Proof. exact doubled. Qed.
Print Assumptions C71_copy_refuted.

(** A class, [public ge] typed in it, and what comes of it. *)
#[local] Instance functions0 : Functions := closures 0.
Example C71_case : fileFront asciiCC classFront classFrontToks /\ typedBehind asciiCC typedPre [WPublic] (classFront ++ [cNL] ++ str "    ") /\
  plainName asciiCC (functionName getIt) /\ SrcSpec.spells asciiCC inCode [(T_RBRACE, str "}")] (str "}") /\
  Forall2 (fun pd x => paramIs asciiCC (fst pd) (snd pd) x) (withDefaults (t_params getIt) (t_defaults getIt)) getItParams /\
  map fst classFrontToks = sourceOf [FSt SOpen] ++ headText (HClass None (Some {| absolute := false; more := 0 |}) []) ++ T_LBRACE :: membersText [] /\
  forallb (@fiOk (closures 0)) [FSt SOpen; FSt (SClass (HClass None (Some {| absolute := false; more := 0 |}) []) [])] = true.
Proof.
  split; [exact front_is|]. split; [exact pre_is|]. split; [exact name_getIt|]. split; [exact rest_is|]. split; [exact params_are|]. split; reflexivity.
Qed.
Example C71_result : implement asciiCC TheCursor (typedPre ++ str "ge" ++ [cNL] ++ str "}") (typed origin typedPre) (typed origin (typedPre ++ str "ge")) getIt Override =
  Some (lines [str "<?php class B extends A {"; str "    "; str "    public function getIt(A $a, $b = 1)"; str "    {";
     str "        $ret = parent::getIt($a, $b);"; str "        return $ret;"; str "    }"; str "    "] ++ str "}").
Proof. exact result. Qed.
