(** C71: a document in which a method is overridden, and documents in which it goes wrong. *)
From Coq Require Import List Bool Lia.
From Verif Require Import ClsModel ClsSpec HelpSpec HelpProofs HelpProofs2 OvrModel OvrSpec OvrProofs OvrProofs2 OvrProofs3.
From Verif Require Import Chars LexModel TokModel ParseModel SrcSpec SrcProofs5 PexSpec StSpec SrcPrint SrcFile OvrSpec2 OvrProofs4 OvrProofs5.
Import ListNotations.
Open Scope nat_scope.
Local Notation cc := asciiCC.
#[local] Instance noFns : Functions := closures 0.

(** [<?php class B extends A {] *)
Definition classFront : qstring := str "<?php class B extends A {".
Definition classFrontToks : list (Tok * qstring) :=
  [(T_OPEN_TAG, str "<?php "); (T_CLASS, str "class"); (T_STRING, str "B"); (T_EXTENDS, str "extends"); (T_STRING, str "A"); (T_LBRACE, str "{")].
(** The method [getIt(A $a, $b = 1)] of the class A *)
Definition getIt : Target := {|
  t_member := {| m_name := 0; m_isMember := true; m_access := Public; m_static := false; m_final := false; m_abstract := false;
                 m_isFunction := true; m_owner := Some 0; m_named := true |};
  t_identifier := str "getit"; t_pretty := Some (str "getIt"); t_special := false; t_interface := false; t_void := false;
  t_params := [ {| HelpModel.p_name := str "a"; HelpModel.p_type := Some (str "A") |}; {| HelpModel.p_name := str "b"; HelpModel.p_type := None |} ];
  t_defaults := [str "1"] |}.
Definition getItParams : list param :=
  [ {| StSpec.p_type := [(false, HName {| absolute := false; more := 0 |})]; p_ref := false; p_variadic := false; p_default := None |};
    {| StSpec.p_type := []; p_ref := false; p_variadic := false; p_default := Some ENum |} ].

Lemma spaces : spacesAreNoLetters cc.
Proof.
  intros c H. cbn in *. unfold asciiSpace in H. unfold asciiLowerLetter, asciiToLower, asciiUpper.
  replace ((65 <=? c)%N && (c <=? 90)%N) with false by lia. lia.
Qed.
Lemma ok : ascii_ok cc. Proof. exact asciiCC_ok. Qed.
Lemma plain_name w : asciiWord w = true -> forallb (fun c => (c <? 128)%N) w = true ->
  forallb (fun k => negb (eqs (map asciiToLower w) (map asciiToLower (fst k)))) ((str "static", T_STATIC) :: (str "yield", T_YIELD) :: phpKeywords) = true -> plainName cc w.
Proof.
  intros A L F. rewrite forallb_forall in F.
  assert (X : forall k t, In (k, t) ((str "static", T_STATIC) :: (str "yield", T_YIELD) :: phpKeywords) -> ~ sameWord cc w k).
  { intros k t H. apply (not_same cc ok); [exact L| |].
    - assert (G : forallb (fun p => forallb (fun c => (c <? 128)%N) (fst p)) ((str "static", T_STATIC) :: (str "yield", T_YIELD) :: phpKeywords) = true) by reflexivity.
      rewrite forallb_forall in G. exact (G _ H).
    - intros E. pose proof (F _ H) as G. cbn [fst] in G. rewrite E in G. rewrite (proj2 (eqs_eq _ _) eq_refl) in G. discriminate. }
  split; [apply (ascii_word cc ok); [exact A|intros; discriminate]|]. split; [intros k t H; apply (X k t); right; right; exact H|].
  split; [apply (X _ T_STATIC); now left|apply (X _ T_YIELD); right; now left].
Qed.
Lemma name_A : plainName cc (str "A"). Proof. apply plain_name; reflexivity. Qed.
Lemma name_B : plainName cc (str "B"). Proof. apply plain_name; reflexivity. Qed.
Lemma name_getIt : plainName cc (str "getIt"). Proof. apply plain_name; reflexivity. Qed.

Lemma keyword w k r : asciiWord w = true -> In (w, k) phpKeywords -> k <> T_HALT_COMPILER -> lexeme cc k w (cSP :: r).
Proof. intros A H N. eapply x_keyword; [apply (ascii_word cc ok); [exact A|apply (sp_noIdent cc ok)]|exact H|reflexivity|exact N]. Qed.
Lemma front_is : fileFront cc classFront classFrontToks.
Proof.
  intros ts r H.
  assert (NI : forall x, noIdent cc (cSP :: x)) by (intros x; apply (sp_noIdent cc ok)).
  assert (W : forall k w rest toks, lexeme cc k w (cSP :: rest) -> noBlank cc rest -> SrcSpec.spells cc inCode toks rest ->
      SrcSpec.spells cc inCode ((k, w) :: toks) (w ++ cSP :: rest)).
  { intros k w rest toks L NB S. apply tok; [exact L|]. apply (blanks cc [cSP]); [apply blank1; exact ok|exact NB|exact S]. }
  assert (NB : forall c x, isSpace cc c = false -> noBlank cc (c :: x)) by (intros c x E d y X; injection X as <- _; exact E).
  refine (sp_piece cc [InHtml] [(T_OPEN_TAG, str "<?php ")] (str "<?php ") inCode _ _ _ _).
  { apply p_open. exists 112%N, 104%N, 112%N, 32%N. repeat split; reflexivity. }
  apply (W T_CLASS (str "class") (str "B extends A {" ++ r)); [apply keyword; [reflexivity|apply findWord_in; reflexivity|discriminate]|apply NB; reflexivity|].
  apply (W T_STRING (str "B") (str "extends A {" ++ r)); [apply name_lex; [exact name_B|apply NI]|apply NB; reflexivity|].
  apply (W T_EXTENDS (str "extends") (str "A {" ++ r)); [apply keyword; [reflexivity|apply findWord_in; reflexivity|discriminate]|apply NB; reflexivity|].
  apply (W T_STRING (str "A") (str "{" ++ r)); [apply name_lex; [exact name_A|apply NI]|apply NB; reflexivity|].
  apply open_brace. exact H.
Qed.
Lemma params_are : Forall2 (fun pd x => paramIs cc (fst pd) (snd pd) x) (withDefaults (t_params getIt) (t_defaults getIt)) getItParams.
Proof.
  assert (W : forall w, asciiWord w = true -> ident cc w).
  { intros w H. destruct (ascii_word cc ok w [] H) as ((c & s & E & I & _) & F & _); [intros; discriminate|]. split; [eauto|exact F]. }
  constructor; [|constructor; [|constructor]]; cbn [fst snd].
  - split; [apply W; reflexivity|repeat split; reflexivity| |reflexivity].
    exists [(T_STRING, str "A")]. split; [reflexivity|]. split; [|split; [intros [X|[]]; discriminate|split; [discriminate|intros c r X; injection X as <- _; reflexivity]]].
    intros ts r (x & ->) S. apply tok; [|exact S]. apply name_lex; [exact name_A|apply (sp_noIdent cc ok)].
  - split; [apply W; reflexivity|repeat split; reflexivity|reflexivity|].
    exists [(T_LNUMBER, str "1")], ENum. split; [reflexivity|]. split; [reflexivity|]. split; [intros c r X; injection X as <- _; reflexivity|].
    intros ts r B S. apply tok; [|exact S]. change T_LNUMBER with (intOrFloat (value 10 [1]%N)).
    apply x_integer; [discriminate|exact dec1|discriminate| | |]; destruct B as [(x & ->)|(x & ->)].
    all: try (intros c s X; injection X as <- _; reflexivity).
    all: try (intros s X; discriminate X).
    all: intros (e & y & X & E & _); injection X as <- _; discriminate.
Qed.
Lemma rest_is : SrcSpec.spells cc inCode [(T_RBRACE, str "}")] (str "}").
Proof. apply (close_brace cc [] []). constructor. Qed.
(** [public ge] is typed. *)
Definition typedPre : qstring := classFront ++ [cNL] ++ str "    public ".
Lemma pre_is : typedBehind cc typedPre [WPublic] (classFront ++ [cNL] ++ str "    ").
Proof.
  split; [exact (tokens_sound cc ok spaces typedPre)|].
  change typedPre with ((classFront ++ [cNL] ++ str "    ") ++ str "public" ++ str " "). apply endsCons; [reflexivity| |constructor].
  intros c [<-|[]]. reflexivity.
Qed.
Definition lines (l : list qstring) : qstring := flat_map (fun s => s ++ [cNL]) l.
Lemma result : implement cc TheCursor (typedPre ++ str "ge" ++ [cNL] ++ str "}") (typed origin typedPre) (typed origin (typedPre ++ str "ge")) getIt Override =
  Some (lines [str "<?php class B extends A {"; str "    "; str "    public function getIt(A $a, $b = 1)"; str "    {";
     str "        $ret = parent::getIt($a, $b);"; str "        return $ret;"; str "    }"; str "    "] ++ str "}").
Proof. vm_compute. reflexivity. Qed.

(** ** Where it goes wrong *)
(** Only [function] is typed: the access is written behind it. *)
Lemma function_first : exists doc', implement cc TheCursor (classFront ++ [cNL] ++ str "  function ge }") (typed origin (classFront ++ [cNL] ++ str "  function "))
    (typed origin (classFront ++ [cNL] ++ str "  function ge")) getIt Override = Some doc' /\
  exists a b, doc' = a ++ str "function public getIt(" ++ b.
Proof.
  eexists. split; [vm_compute; reflexivity|]. exists (classFront ++ [cNL] ++ str "  " ++ [cNL] ++ str "  "). eexists. unfold classFront. cbn [str app]. reflexivity.
Qed.
(** The start of the range is a copy: the modifiers stay, and are written again. *)
Lemma doubled : implement cc ACopy (typedPre ++ str "ge }") (typed origin typedPre) (typed origin (typedPre ++ str "ge")) getIt Implement =
  Some (lines [str "<?php class B extends A {"; str "    public "; str "    public function getIt(A $a, $b = 1)"; str "    {"; str "        "; str "    }"] ++ str "     }").
Proof. vm_compute. reflexivity. Qed.

(** A property is offered behind [public function]. *)
Definition propX : Target := {|
  t_member := {| m_name := 0; m_isMember := true; m_access := Public; m_static := false; m_final := false; m_abstract := false;
                 m_isFunction := false; m_owner := Some 0; m_named := true |};
  t_identifier := str "x"; t_pretty := None; t_special := false; t_interface := false; t_void := false; t_params := []; t_defaults := [] |}.
Definition twoClasses : World :=
  [{| cd_id := 0; cd_bases := []; cd_kind := KClass; cd_mod := ModNone |}; {| cd_id := 1; cd_bases := [Some 0]; cd_kind := KClass; cd_mod := ModNone |}].
Definition fnPre : qstring := classFront ++ str " public function ".
Lemma property_function : exists doc',
  In (t_member propX, OverrideVar) (snd (classMemberItems twoClasses (fun a b => Nat.leb b a) 1 (getMethodTokens cc fnPre) [(t_member propX, 1)])) /\
  implement cc TheCursor (fnPre ++ str "x }") (typed origin fnPre) (typed origin (fnPre ++ str "x")) propX OverrideVar = Some doc' /\
  exists a, doc' = a ++ str "public function $x =  }".
Proof.
  eexists. split; [vm_compute; left; reflexivity|]. split; [vm_compute; reflexivity|]. exists (classFront ++ str " " ++ [cNL] ++ str "  "). reflexivity.
Qed.
