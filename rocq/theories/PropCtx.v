(** C56 and C57: what completion offers behind a text.  Vocabulary in CtxSpec.v.  [doc] is
    the text handed to the lexer; [env] stands for the rest of the program (does an expression
    have a type, is the cursor in a method of a class with a usable base class). *)
From Verif Require Import CtxSpec CtxProofs3 CtxProofs4 CtxProofs8 CtxProofs9 PropCompl LexRefute.
Open Scope nat_scope.

(** ** C56: for all texts, after a keyword or token the completion offers what PHP allows there. *)
Theorem C56_offers : forall cc env fuel addTag inClass text following toks nls last op forbidden, ascii_ok cc ->
  let doc := fullText addTag text in
  lexAll cc fuel doc initHtml = Some (Done toks nls last) -> covers doc (pieces doc toks) ->
  offers inClass (pieces doc toks) op forbidden ->
  exists c, complete cc env fuel addTag inClass text following = Ok c /\ c_valid c = true /\ c_op c = op /\
    forall n, In n (c_forbid c) <-> In n forbidden.
Proof. intros cc env fuel addTag inClass text following toks nls last op forbidden OK. exact (offers_text cc OK env fuel addTag inClass text following toks nls last op forbidden). Qed.
Print Assumptions C56_offers.
Theorem C56_nothing : forall cc env fuel addTag inClass text following toks nls last c, ascii_ok cc ->
  let doc := fullText addTag text in
  lexAll cc fuel doc initHtml = Some (Done toks nls last) -> covers doc (pieces doc toks) ->
  offersNothing inClass (pieces doc toks) ->
  complete cc env fuel addTag inClass text following = Ok c -> c_valid c = false.
Proof. intros cc env fuel addTag inClass text following toks nls last c OK. exact (nothing_text cc OK env fuel addTag inClass text following toks nls last c). Qed.
Print Assumptions C56_nothing.
(** Nothing is offered in a text without any code. *)
Theorem C56_html : forall cc env fuel inClass text following c, ascii_ok cc -> ~ contains (str "<?") text ->
  complete cc env fuel false inClass text following = Ok c -> c_valid c = false.
Proof. intros cc env fuel inClass text following c OK. exact (html_nothing cc OK env fuel inClass text following c). Qed.
Print Assumptions C56_html.
(** In a class that has a base class nothing is offered behind "implements". *)
Theorem C56_implements_refuted : exists cc env fuel text toks nls last c pre a b n d e f g h i j, ascii_ok cc /\
  let doc := fullText true text in
  lexAll cc fuel doc initHtml = Some (Done toks nls last) /\ covers doc (pieces doc toks) /\
  pieces doc toks = pre ++ [(T_CLASS, a); blank b; (T_STRING, n); blank d; (T_EXTENDS, e); blank f; (T_STRING, g); blank h; (T_IMPLEMENTS, i); blank j] /\
  complete cc env fuel true false text [] = Ok c /\ c_valid c = false.
Proof.
  exists asciiCC, noTypes, 60, (str "class A extends B implements "). do 4 eexists. exists [(T_OPEN_TAG, str "<?php ")]. do 10 eexists.
  split; [exact asciiCC_ok|]. split; [vm_compute; reflexivity|]. split; [vm_compute; reflexivity|]. split; [vm_compute; reflexivity|]. split; [vm_compute; reflexivity|reflexivity].
Qed.
Print Assumptions C56_implements_refuted.
(** Behind "namespace a\" other namespaces are not offered (what is offered is the content of [a]). *)
Theorem C56_namespace_refuted : exists cc env fuel text toks nls last c pre a b n d, ascii_ok cc /\
  let doc := fullText true text in
  lexAll cc fuel doc initHtml = Some (Done toks nls last) /\ covers doc (pieces doc toks) /\
  pieces doc toks = pre ++ [(T_NAMESPACE, a); blank b; (T_STRING, n); (T_BACKSLASH, d)] /\
  complete cc env fuel true false text [] = Ok c /\ c_op c <> NamespaceChoose.
Proof.
  exists asciiCC, noTypes, 60, (str "namespace a\"). do 4 eexists. exists [(T_OPEN_TAG, str "<?php ")]. do 4 eexists.
  split; [exact asciiCC_ok|]. split; [vm_compute; reflexivity|]. split; [vm_compute; reflexivity|]. split; [vm_compute; reflexivity|]. split; [vm_compute; reflexivity|discriminate].
Qed.
Print Assumptions C56_namespace_refuted.

Ltac lexes := split; [vm_compute; reflexivity|split; [vm_compute; reflexivity|vm_compute]].
Example C56_list_case : exists toks nls last, let doc := fullText true (str "class A implements I, J , ") in
  lexAll asciiCC 60 doc initHtml = Some (Done toks nls last) /\ covers doc (pieces doc toks) /\
  offers false (pieces doc toks) InterfaceChoose [str "A"; str "I"; str "J"].
Proof.
  do 3 eexists. lexes.
  apply (of_list false [(T_OPEN_TAG, str "<?php ")] T_CLASS T_IMPLEMENTS (str "class") (str " ") (str "A") (str " ") (str "implements")
    [blank (str " "); (T_STRING, str "I"); (T_COMMA, str ","); blank (str " "); (T_STRING, str "J"); blank (str " "); (T_COMMA, str ",")] [str "I"; str "J"] [blank (str " ")]).
  - left. split; reflexivity.
  - apply (nl_more [blank (str " "); (T_STRING, str "I"); (T_COMMA, str ",")] [str "I"] [blank (str " ")] (str "J") [blank (str " ")] (str ",")); try constructor.
    apply (nl_more [] [] [blank (str " ")] (str "I") [] (str ",")); constructor.
  - discriminate.
  - constructor.
Qed.
Example C56_throw_case : exists toks nls last, let doc := fullText true (str "f(); throw new ") in
  lexAll asciiCC 60 doc initHtml = Some (Done toks nls last) /\ covers doc (pieces doc toks) /\
  offers false (pieces doc toks) ExceptionChoose [].
Proof.
  do 3 eexists. lexes.
  apply (of_throw_new false [(T_OPEN_TAG, str "<?php "); (T_STRING, str "f"); (T_LPAREN, str "("); (T_RPAREN, str ")"); (T_SEMICOLON, str ";"); blank (str " ")]).
Qed.
Example C56_catch_case : exists toks nls last, let doc := fullText true (str "try { } catch( ") in
  lexAll asciiCC 60 doc initHtml = Some (Done toks nls last) /\ covers doc (pieces doc toks) /\
  offers true (pieces doc toks) ExceptionChoose [].
Proof.
  do 3 eexists. lexes.
  apply (of_catch true [(T_OPEN_TAG, str "<?php "); (T_TRY, str "try"); blank (str " "); (T_LBRACE, str "{"); blank (str " "); (T_RBRACE, str "}"); blank (str " ")]
    (str "catch") [] (str "(") [blank (str " ")]); constructor.
Qed.
Example C56_nothing_case : exists toks nls last, let doc := fullText true (str "class A { function ") in
  lexAll asciiCC 60 doc initHtml = Some (Done toks nls last) /\ covers doc (pieces doc toks) /\ offersNothing true (pieces doc toks).
Proof.
  do 3 eexists. lexes.
  apply (on_dead true [(T_OPEN_TAG, str "<?php "); (T_CLASS, str "class"); blank (str " "); (T_STRING, str "A"); blank (str " "); (T_LBRACE, str "{"); blank (str " ")]
    T_FUNCTION (str "function") [blank (str " ")]); [cbn; tauto|constructor].
Qed.

Example C56_html_case : ~ contains (str "<?") (str "<p>new ") /\ exists c, complete asciiCC noTypes 9 false false (str "<p>new ") [] = Ok c.
Proof.
  split; [|eexists; vm_compute; reflexivity]. intros (a & b & E). do 7 (destruct a; [discriminate E|cbn in E; injection E as _ E]). destruct a; discriminate.
Qed.

(** ** C57: behind "->" the members of exactly the expression to its left are offered, if it has
    a type.  The text of the expression gets a closing parenthesis (which the expression parser
    ignores) if an opening one stands in front of it. *)
Theorem C57_member : forall cc env fuel addTag inClass text following toks nls last pre stop x w0 e a w, ascii_ok cc ->
  let doc := fullText addTag text in
  lexAll cc fuel doc initHtml = Some (Done toks nls last) -> covers doc (pieces doc toks) ->
  pieces doc toks = pre ++ [(stop, x)] ++ w0 ++ e ++ [(T_OBJECT_OPERATOR, a)] ++ w ->
  lead w0 -> isExpression e -> ~ In T_COMMA (kindsOf e) ->
  In stop boundaries \/ stop = T_COMMA \/ stop = T_LPAREN -> gap w ->
  exists c, complete cc env fuel addTag inClass text following = Ok c /\
  let t := trimmed cc (textOf e) ++ (if is stop T_LPAREN then str ")" else []) in
  let ty := match t with [] => false | _ => e_hasType env t end in
  c_op c = MemberAccess /\ c_expr c = t /\ (ty = false -> c_valid c = false) /\
  (In stop boundaries -> c_valid c = ty /\ c_parent c = None).
Proof. intros cc env fuel addTag inClass text following toks nls last pre stop x w0 e a w OK. exact (member_text cc OK env fuel addTag inClass text following toks nls last pre stop x w0 e a w). Qed.
Print Assumptions C57_member.
(** Behind "name::" at the start of an expression the static members are offered; "parent::"
    in a method needs a class that can be constructed and offers all its members. *)
Theorem C57_static : forall cc env fuel addTag inClass text following toks nls last pre stop x w0 n w1 a w, ascii_ok cc ->
  let doc := fullText addTag text in
  lexAll cc fuel doc initHtml = Some (Done toks nls last) -> covers doc (pieces doc toks) ->
  pieces doc toks = pre ++ [(stop, x)] ++ w0 ++ ((T_STRING, n) :: w1) ++ [(T_PAAMAYIM_NEKUDOTAYIM, a)] ++ w ->
  lead w0 -> gap w1 -> In stop boundaries -> gap w ->
  exists c, complete cc env fuel addTag inClass text following = Ok c /\
  if eqs (map (toLower cc) n) (str "parent") && e_inMethod env
  then (if e_goodParent env then c_valid c = true /\ c_op c = MemberAccess else c_valid c = false)
  else c_valid c = true /\ c_op c = StaticMemberAccess.
Proof. intros cc env fuel addTag inClass text following toks nls last pre stop x w0 n w1 a w OK. exact (static_text cc OK env fuel addTag inClass text following toks nls last pre stop x w0 n w1 a w). Qed.
Print Assumptions C57_static.
(** Inside the argument list of a call, the signature of the called function is shown: the
    expression asked for is the text of the callee with an empty argument list. *)
Theorem C57_call : forall cc env fuel addTag inClass text following toks nls last pre stop x w0 e P k n w1 b args w, ascii_ok cc ->
  let doc := fullText addTag text in
  lexAll cc fuel doc initHtml = Some (Done toks nls last) -> covers doc (pieces doc toks) ->
  pieces doc toks = pre ++ [(stop, x)] ++ w0 ++ e ++ [(T_LPAREN, b)] ++ args ++ w ->
  lead w0 -> isExpression e -> In stop boundaries \/ stop = T_LPAREN ->
  e = P ++ (k, n) :: w1 -> k = T_STRING \/ k = T_VARIABLE -> gap w1 -> earlierArguments args -> gap w ->
  exists c, complete cc env fuel addTag inClass text following = Ok c /\
  c_valid c = true /\ c_op c = NoMemberAccess /\
  exists p, c_parent c = Some p /\ c_op p = FunctionCallAccess /\
    c_expr p = trimmed cc (textOf e ++ b) ++ str ")" ++ (if is stop T_LPAREN then str ")" else []) /\
    (In stop boundaries -> c_valid p = true).
Proof. intros cc env fuel addTag inClass text following toks nls last pre stop x w0 e P k n w1 b args w OK. exact (call_text cc OK env fuel addTag inClass text following toks nls last pre stop x w0 e P k n w1 b args w). Qed.
Print Assumptions C57_call.

(** A comma anywhere in the expression, even inside a call, hides the members. *)
Theorem C57_comma_refuted : exists cc env fuel text toks nls last pre e a c, ascii_ok cc /\
  let doc := fullText true text in
  lexAll cc fuel doc initHtml = Some (Done toks nls last) /\ covers doc (pieces doc toks) /\
  pieces doc toks = pre ++ [(T_SEMICOLON, str ";")] ++ e ++ [(T_OBJECT_OPERATOR, a)] /\ isExpression e /\
  textOf e = str "$a->f(1,2)" /\ (forall s, e_hasType env s = true) /\
  complete cc env fuel true false text [] = Ok c /\ c_valid c = false.
Proof.
  exists asciiCC, noTypes, 60, (str ";$a->f(1,2)->"). do 3 eexists. exists [(T_OPEN_TAG, str "<?php ")].
  exists [(T_VARIABLE, str "$a"); (T_OBJECT_OPERATOR, str "->"); (T_STRING, str "f"); (T_LPAREN, str "("); (T_LNUMBER, str "1"); (T_COMMA, str ","); (T_LNUMBER, str "2"); (T_RPAREN, str ")")].
  do 2 eexists. split; [exact asciiCC_ok|]. split; [vm_compute; reflexivity|]. split; [vm_compute; reflexivity|]. split; [vm_compute; reflexivity|].
  split. { split; [|split].
    - cbn. do 3 (apply bal_other; [discriminate|discriminate|]). apply (bal_paren [T_LNUMBER; T_COMMA; T_LNUMBER] []); [|apply bal_nil]. do 3 (apply bal_other; [discriminate|discriminate|]). apply bal_nil.
    - cbn. intros k Hk. repeat (destruct Hk as [<-|Hk]; [split; [intuition discriminate|discriminate]|]). destruct Hk.
    - do 3 eexists. split; [reflexivity|]. split; discriminate. }
  split; [reflexivity|]. split; [reflexivity|]. split; [vm_compute; reflexivity|reflexivity].
Qed.
Print Assumptions C57_comma_refuted.
(** Static members are not offered behind "$x = A::", and behind "echo $a->" the members asked
    for are those of "echo $a". *)
Theorem C57_inner_refuted : exists cc env fuel toks1 toks2 nls1 nls2 last1 last2 c1 c2, ascii_ok cc /\
  lexAll cc fuel (str "<?php $x = A::") initHtml = Some (Done toks1 nls1 last1) /\
  complete cc env fuel true false (str "$x = A::") [] = Ok c1 /\ c_valid c1 = false /\
  lexAll cc fuel (str "<?php echo $a->") initHtml = Some (Done toks2 nls2 last2) /\
  complete cc env fuel true false (str "echo $a->") [] = Ok c2 /\ c_expr c2 = str "echo $a".
Proof.
  exists asciiCC, noTypes, 60. do 8 eexists. split; [exact asciiCC_ok|]. split; [vm_compute; reflexivity|]. split; [vm_compute; reflexivity|]. split; [reflexivity|].
  split; [vm_compute; reflexivity|]. split; [vm_compute; reflexivity|reflexivity].
Qed.
Print Assumptions C57_inner_refuted.
(** A call that is a later argument of another call is not asked for alone. *)
Theorem C57_nested_refuted : exists cc env fuel toks nls last c p, ascii_ok cc /\
  lexAll cc fuel (str "<?php f(1,g(") initHtml = Some (Done toks nls last) /\
  complete cc env fuel true false (str "f(1,g(") [] = Ok c /\ c_parent c = Some p /\ c_expr p = str "1,g())".
Proof.
  exists asciiCC, noTypes, 60. do 5 eexists. split; [exact asciiCC_ok|]. split; [vm_compute; reflexivity|]. split; [vm_compute; reflexivity|]. split; reflexivity.
Qed.
Print Assumptions C57_nested_refuted.

Example C57_member_case : exists toks nls last a, let doc := fullText true (str "f(); return $a->b($c)-> ") in
  let e := [(T_VARIABLE, str "$a"); (T_OBJECT_OPERATOR, str "->"); (T_STRING, str "b"); (T_LPAREN, str "("); (T_VARIABLE, str "$c"); (T_RPAREN, str ")")] in
  lexAll asciiCC 60 doc initHtml = Some (Done toks nls last) /\ covers doc (pieces doc toks) /\
  pieces doc toks = [(T_OPEN_TAG, str "<?php "); (T_STRING, str "f"); (T_LPAREN, str "("); (T_RPAREN, str ")")] ++ [(T_SEMICOLON, str ";")]
    ++ [blank (str " "); (T_RETURN, str "return"); blank (str " ")] ++ e ++ [(T_OBJECT_OPERATOR, a)] ++ [blank (str " ")] /\
  lead [blank (str " "); (T_RETURN, str "return"); blank (str " ")] /\ isExpression e /\ ~ In T_COMMA (kindsOf e).
Proof.
  do 4 eexists. cbv zeta. split; [vm_compute; reflexivity|]. split; [vm_compute; reflexivity|]. split; [vm_compute; reflexivity|].
  split; [apply (lead_return [blank (str " ")] (str "return") [blank (str " ")]); constructor|]. split.
  { split; [|split].
    - cbn. do 3 (apply bal_other; [discriminate|discriminate|]). apply (bal_paren [T_VARIABLE] []); [|apply bal_nil]. apply bal_other; [discriminate|discriminate|]. apply bal_nil.
    - cbn. intros k Hk. repeat (destruct Hk as [<-|Hk]; [split; [intuition discriminate|discriminate]|]). destruct Hk.
    - do 3 eexists. split; [reflexivity|]. split; discriminate. }
  cbn. intuition discriminate.
Qed.
Example C57_call_case : exists toks nls last, let doc := fullText true (str "$a->b(1, h(2), ") in
  let args := [(T_LNUMBER, str "1"); (T_COMMA, str ","); blank (str " "); (T_STRING, str "h"); (T_LPAREN, str "("); (T_LNUMBER, str "2"); (T_RPAREN, str ")"); (T_COMMA, str ",")] in
  lexAll asciiCC 60 doc initHtml = Some (Done toks nls last) /\ covers doc (pieces doc toks) /\
  pieces doc toks = [] ++ [(T_OPEN_TAG, str "<?php ")] ++ [] ++ [(T_VARIABLE, str "$a"); (T_OBJECT_OPERATOR, str "->"); (T_STRING, str "b")] ++ [(T_LPAREN, str "(")] ++ args ++ [blank (str " ")] /\
  earlierArguments args.
Proof.
  do 3 eexists. cbv zeta. split; [vm_compute; reflexivity|]. split; [vm_compute; reflexivity|]. split; [vm_compute; reflexivity|].
  right. split; [|split; [|split; [|split]]]; [|cbn; intuition discriminate|cbn; intuition discriminate|cbn; intuition discriminate|].
  - cbn. do 4 (apply bal_other; [discriminate|discriminate|]). apply (bal_paren [T_LNUMBER] [T_COMMA]); (apply bal_other; [discriminate|discriminate|]); apply bal_nil.
  - exists [(T_LNUMBER, str "1"); (T_COMMA, str ","); blank (str " "); (T_STRING, str "h"); (T_LPAREN, str "("); (T_LNUMBER, str "2"); (T_RPAREN, str ")")]. eexists. reflexivity.
Qed.
