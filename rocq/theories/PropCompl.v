(** C32-C34: the completion context.  Vocabulary in ComplSpec.v; [env] stands for what the
    context asks the rest of the program (types of expressions, the enclosing class). *)
From Verif Require Import ComplProofs3 LexRefute.
Open Scope nat_scope.

(** ** C32: whenever tokenizing ends normally, so does building the context: no token outside
    the list is read, no assertion fails ([Bad]) and all loops end within the same fuel. *)
Theorem C32_tokens : forall cc env fuel addTag inClass text following toks nls last, ascii_ok cc ->
  lexAll cc fuel (fullText addTag text) initHtml = Some (Done toks nls last) ->
  exists c, complete cc env fuel addTag inClass text following = Ok c.
Proof.
  intros cc env fuel addTag inClass text following toks nls last OK HL. unfold complete.
  destruct (fullText addTag text) as [|x s] eqn:E; [eauto|]. rewrite HL.
  exact (completeTokens_ok cc OK (x :: s) env fuel inClass following toks nls last ltac:(discriminate) HL).
Qed.
Print Assumptions C32_tokens.
(** With C03 and C04: for every text outside their two exceptions. *)
Theorem C32_texts : forall cc env addTag inClass text following, ascii_ok cc ->
  let doc := fullText addTag text in
  ~ braceDollarDigit cc doc -> ~ yieldAtEnd cc doc ->
  exists c, complete cc env (2 * List.length doc + 1) addTag inClass text following = Ok c.
Proof.
  intros cc env addTag inClass text following OK doc H1 H2.
  destruct (finishes cc OK doc initHtml (or_introl eq_refl) H1 H2) as (toks & nls & last & HL).
  exact (C32_tokens cc env _ addTag inClass text following toks nls last OK HL).
Qed.
Print Assumptions C32_texts.
Definition noTypes : Env := {| e_hasType := fun _ => true; e_inMethod := true; e_goodParent := true |}.
Example C32_case : exists toks nls last c p,
  let text := str "$x = f(1,g($a,$b->" in
  lexAll asciiCC 60 (fullText true text) initHtml = Some (Done toks nls last) /\ List.length toks = 15 /\
  complete asciiCC noTypes 60 true false text [] = Ok c /\ c_valid c = true /\ c_op c = MemberAccess /\
  c_expr c = str "$b" /\ c_parent c = Some p /\ c_expr p = str "1,g())" /\
  exists p2, c_parent p = Some p2 /\ c_expr p2 = str "$x = f()".
Proof. do 5 eexists. vm_compute. do 8 (split; [reflexivity|]). eexists. split; reflexivity. Qed.
Example C32_case2 : let doc := fullText true (str "$x = f(1,g($a,$b->") in
  ~ braceDollarDigit asciiCC doc /\ ~ yieldAtEnd asciiCC doc.
Proof.
  split; [apply bddb_ok; vm_compute; reflexivity|apply noY_ok; vm_compute].
  intros H. repeat (destruct H as [H|H]; [discriminate H|]). exact H.
Qed.

(** ** C33 *)
Theorem C33_block : forall cc env fuel addTag inClass text following c, ascii_ok cc ->
  endsInBlockComment cc (fullText addTag text) ->
  complete cc env fuel addTag inClass text following = Ok c -> c_valid c = false.
Proof. intros cc env fuel addTag inClass text following c OK. exact (complete_block cc OK env fuel addTag inClass text following c). Qed.
Print Assumptions C33_block.
(** Full statement: also for comments started by three slashes; see [C33_doc_refuted]. *)
Theorem C33_line_partial : forall cc env fuel addTag inClass text following c, ascii_ok cc ->
  endsInLineComment cc (fullText addTag text) ->
  complete cc env fuel addTag inClass text following = Ok c -> c_valid c = false.
Proof. intros cc env fuel addTag inClass text following c OK. exact (complete_line cc OK env fuel addTag inClass text following c). Qed.
Print Assumptions C33_line_partial.

Fixpoint steps (n : nat) (content : qstring) (l : LexState) : option (list Token * LexState) :=
  match n with
  | 0 => Some ([], l)
  | S n => match steps n content l with
           | Some (ts, l1) => match nextToken asciiCC content l1 with
                              | Some (l2, t, _) => if isEOF (t_kind t) then None else Some (ts ++ [t], l2)
                              | None => None end
           | None => None end
  end.
Lemma steps_handsOut content l n : forall ts l', steps n content l = Some (ts, l') -> handsOut asciiCC content l ts l'.
Proof.
  induction n as [|n IH]; intros ts l'; cbn [steps].
  - intros H. injection H as <- <-. constructor.
  - destruct (steps n content l) as [[ts1 l1]|]; [|discriminate].
    destruct (nextToken asciiCC content l1) as [[[l2 t] nl]|] eqn:E; [|discriminate].
    destruct (isEOF (t_kind t)) eqn:Ee; [discriminate|]. intros H. injection H as <- <-.
    eapply ho_snoc; [apply IH; reflexivity|exact E|]. intros Hk. unfold isEOF in Ee. rewrite Hk in Ee. discriminate.
Qed.
Lemma steps_inPhp content n ts l rest q : steps n content initHtml = Some (ts, l) -> lx_halt l = 0 ->
  lx_st l = DefaultState :: q -> remaining content l = rest ->
  handsOut asciiCC content initHtml ts l /\ inPhp asciiCC content l rest.
Proof.
  intros H Hh Hq Hr. apply steps_handsOut in H. split; auto. left. split; [|split; [congruence|split; [eauto|auto]]].
  exists initHtml. split; [left; reflexivity|exact (handsOut_reach asciiCC content _ _ _ H)].
Qed.
Lemma oneLineB s : forallb (fun c => negb (c =? cNL)%N && negb (c =? cQUEST)%N) s = true -> oneLine s.
Proof.
  intros H. rewrite forallb_forall in H. split.
  - intros Hi. specialize (H _ Hi). discriminate.
  - intros (a & b & ->). specialize (H 63%N). assert (In 63%N (a ++ str "?>" ++ b)) by (apply in_or_app; right; left; reflexivity).
    specialize (H H0). discriminate.
Qed.

Theorem C33_doc_refuted : exists cc env fuel addTag inClass text following c, ascii_ok cc /\
  endsInDocLine cc (fullText addTag text) /\
  complete cc env fuel addTag inClass text following = Ok c /\ c_valid c = true.
Proof.
  exists asciiCC, noTypes, 40, true, false, (str "f(); /// see "), []. eexists.
  split; [exact asciiCC_ok|]. split; [|split; [vm_compute; reflexivity|reflexivity]].
  destruct (steps 6 (fullText true (str "f(); /// see ")) initHtml) as [[ts l]|] eqn:E; [|vm_compute in E; discriminate].
  exists ts, l, (str " see "). pose proof E as E2. vm_compute in E2. injection E2 as _ <-.
  destruct (steps_inPhp _ _ _ _ (str "///" ++ str " see ") _ E eq_refl eq_refl eq_refl) as [H1 H2].
  split; auto. split; auto. apply oneLineB. reflexivity.
Qed.
Print Assumptions C33_doc_refuted.

Example C33_block_case : let doc := fullText true (str "$a->b(/* x*") in endsInBlockComment asciiCC doc /\
  exists c, complete asciiCC noTypes 40 true false (str "$a->b(/* x*") [] = Ok c.
Proof.
  split; [|eexists; vm_compute; reflexivity].
  destruct (steps 5 (fullText true (str "$a->b(/* x*")) initHtml) as [[ts l]|] eqn:E; [|vm_compute in E; discriminate].
  exists ts, l, (str " x*"). pose proof E as E2. vm_compute in E2. injection E2 as _ <-.
  destruct (steps_inPhp _ _ _ _ (str "/*" ++ str " x*") _ E eq_refl eq_refl eq_refl) as [H1 H2].
  split; auto. split; auto. intros (a & b & H). do 3 (destruct a; [discriminate H|cbn in H; injection H as _ H]). destruct a; discriminate.
Qed.
Example C33_line_case : let doc := fullText true (str "$a // x->") in endsInLineComment asciiCC doc /\
  exists c, complete asciiCC noTypes 40 true false (str "$a // x->") [] = Ok c.
Proof.
  split; [|eexists; vm_compute; reflexivity].
  destruct (steps 3 (fullText true (str "$a // x->")) initHtml) as [[ts l]|] eqn:E; [|vm_compute in E; discriminate].
  exists ts, l, (str "//"), (str " x->"). pose proof E as E2. vm_compute in E2. injection E2 as _ <-.
  destruct (steps_inPhp _ _ _ _ (str "//" ++ str " x->") _ E eq_refl eq_refl eq_refl) as [H1 H2].
  split; auto. split; auto. split; [apply oneLineB; reflexivity|]. right. split; auto. discriminate.
Qed.

(** ** C34 *)
Theorem C34_arguments : forall code before comma after fuel, t_kind comma = T_COMMA ->
  List.length before < fuel ->
  let toks := before ++ comma :: after in
  let ta := {| ta_code := code; ta_stream := toks; ta_pos := Z.of_nat (List.length before) |} in
  exists ta', removeOtherArguments fuel ta = Ok ta' /\ ta_stream ta' = toks /\
    ((exists p, ta_pos ta' = Z.of_nat p /\ encloses (map t_kind toks) (List.length before) p) \/
     (type ta' = Ok T_INVALID /\ forall p, ~ encloses (map t_kind toks) (List.length before) p)).
Proof. exact rOA_spec. Qed.
Print Assumptions C34_arguments.
(** There is at most one such parenthesis. *)
Theorem C34_unique : forall ks c p q, encloses ks c p -> encloses ks c q -> p = q.
Proof. exact encloses_unique. Qed.
Print Assumptions C34_unique.
Example C34_case : encloses [T_STRING; T_LPAREN; T_STRING; T_LPAREN; T_COMMA; T_RPAREN; T_COMMA; T_VARIABLE; T_COMMA] 8 1.
Proof.
  exists [T_STRING], [T_STRING; T_LPAREN; T_COMMA; T_RPAREN; T_COMMA; T_VARIABLE], [T_COMMA].
  split; [reflexivity|]. split; [reflexivity|]. split; [reflexivity|]. split.
  - apply bal_other; [discriminate|discriminate|].
    apply (bal_paren [T_COMMA] [T_COMMA; T_VARIABLE]); repeat (apply bal_other; [discriminate|discriminate|]); apply bal_nil.
  - cbn. intuition discriminate.
Qed.
