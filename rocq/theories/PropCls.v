(** C35-C38, C52: completion and the class graph.  Vocabulary in ClsSpec.v. *)
From Verif Require Import ClsSpec ClsProofs ClsProofs2.
Open Scope nat_scope.

(** ** C37 *)
Theorem C37_terminates : forall w find ids s,
  exists s', forbidNames (S (List.length w)) w find ids s = Some s'.
Proof. intros w find ids s. exact (forbidNames_total w find ids s). Qed.
Print Assumptions C37_terminates.
(** Nothing else is forbidden. *)
Theorem C37_only : forall fuel w find ids s, findsClasses w find ->
  forbidNames fuel w find ids [] = Some s -> forall x, In x s -> mustForbid w find ids x.
Proof.
  intros fuel w find ids s [OK _] E x Hx.
  destruct (forbidNames_spec fuel w find OK ids [] s E) as [_ X]. destruct (X x Hx) as [[]|M]. exact M.
Qed.
Print Assumptions C37_only.
(** Full statement: without [uniqueIds]; see [C37_refuted]. *)
Theorem C37_exact_partial : forall w find ids, findsClasses w find -> uniqueIds w ->
  exists s, forbidNames (S (List.length w)) w find ids [] = Some s /\
    forall x, In x s <-> mustForbid w find ids x.
Proof. exact C37_main. Qed.
Print Assumptions C37_exact_partial.

Definition cls id bases k m := {| cd_id := id; cd_bases := bases; cd_kind := k; cd_mod := m |}.
(** A(10) extends B(11), B extends C(12) and an unknown class, C extends A: a cycle. *)
Definition cyc : World :=
  [cls 10 [Some 1] KClass ModNone; cls 11 [Some 2; None] KClass ModFinal; cls 12 [Some 0] KClass ModAbstract;
   cls 13 [] KInterface ModNone].
Definition findBy (w : World) (i : nat) : option nat :=
  find (fun d => match nth_error w d with Some c => Nat.eqb (cd_id c) i | None => false end) (seq 0 (List.length w)).
Lemma findBy_ok w : findsClasses w (findBy w).
Proof.
  unfold findBy. split.
  - intros i d H. apply find_some in H. destruct H as [_ H]. destruct (nth_error w d) as [c|] eqn:E; [|discriminate].
    apply Nat.eqb_eq in H. exists c. auto.
  - intros i d (c & Hc & Hi) H. assert (L : In d (seq 0 (List.length w))).
    { apply in_seq. cbn. (split; [lia|]). apply nth_error_Some. congruence. }
    pose proof (find_none _ _ H d L) as X. cbn in X. rewrite Hc, Hi, Nat.eqb_refl in X. discriminate.
Qed.
Example C37_case : findsClasses cyc (findBy cyc) /\ uniqueIds cyc /\
  forbidNames 5 cyc (findBy cyc) [99; 11] [] = Some [10; 12; 11; 99].
Proof.
  split; [apply findBy_ok|]. split; [|reflexivity].
  intros d1 d2 id (c1 & H1 & E1) (c2 & H2 & E2).
  destruct d1 as [|[|[|[|[|d1]]]]]; cbn in H1; try discriminate;
  destruct d2 as [|[|[|[|[|d2]]]]]; cbn in H2; try discriminate; try reflexivity;
  injection H1 as <-; injection H2 as <-; cbn in E1, E2; congruence.
Qed.
(** Two declarations of one name (two files each declaring B; only the second extends A):
    when the first was visited the bases of the second are not forbidden. *)
Theorem C37_refuted : exists w find ids s x, findsClasses w find /\
  forbidNames (S (List.length w)) w find ids [] = Some s /\ mustForbid w find ids x /\ ~ In x s.
Proof.
  exists [cls 1 [] KClass ModNone; cls 1 [Some 2] KClass ModNone; cls 2 [] KClass ModNone;
          cls 3 [Some 0; Some 1] KClass ModNone].
  eexists. exists [3]. do 2 eexists. split; [apply findBy_ok|]. split; [reflexivity|]. split.
  - exists 3. split; [now left|]. right. exists 3, 2. split; [reflexivity|]. split.
    + apply der_step with 1; [eexists; cbn; split; [reflexivity|]; split; [cbn; auto|lia]|].
      apply der_step with 2; [eexists; cbn; split; [reflexivity|]; split; [cbn; auto|lia]|]. apply der_self.
    + eexists. split; reflexivity.
  - cbn. intuition discriminate.
Qed.
Print Assumptions C37_refuted.

(** ** C38 *)
(** Of the declarations visible at the cursor exactly the acceptable ones are offered. *)
Theorem C38_visible : forall w pub x decls d, knowsBases w pub ->
  (forall e, x_exception x = Some e -> e < List.length w) ->
  isClassOp (x_op x) = true -> d_kind d <> KindInstance ->
  (In d (visibleItems w pub x (rev decls) []) <-> In d decls /\ ~ hidden d /\ acceptable w x d).
Proof.
  intros w pub x decls d KB HE HO HK. split.
  - intros H. apply visible_valid in H. destruct H as [V H]. split; [apply in_rev; exact H|].
    apply (isValid_class w pub x d KB HE HO). exact V.
  - intros (H & V). apply visible_in; [exact HK|apply in_rev; rewrite rev_involutive; exact H|].
    apply (isValid_class w pub x d KB HE HO). exact V.
Qed.
Print Assumptions C38_visible.
(** Full statement: every item; the items [classItems] takes from the code model of other
    files are not filtered, see [C38_refuted]. *)
Theorem C38_offered_partial : forall w pub x decls others d, knowsBases w pub ->
  (forall e, x_exception x = Some e -> e < List.length w) -> isClassOp (x_op x) = true ->
  In d (visibleItems w pub x (rev decls) [] ++ modelItems w pub x others) -> acceptable w x d.
Proof.
  intros w pub x decls others d KB HE HO H. apply (isValid_class w pub x d KB HE HO).
  apply in_app_or in H. destruct H as [H|H]; [apply visible_valid in H; apply H|].
  apply filter_In in H. destruct H as [_ H]. rewrite !andb_true_iff in H. apply H.
Qed.
Print Assumptions C38_offered_partial.
(** [throw $]: only variables holding exceptions; [namespace]: only namespaces. *)
Theorem C38_instances : forall w pub x d, knowsBases w pub -> x_op x = ExceptionInstanceChoose ->
  (forall e, x_exception x = Some e -> e < List.length w) ->
  (forall c, d_typeClass d = Some c -> c < List.length w) ->
  isValid w pub x d = true ->
  d_kind d = KindInstance /\ exists c e, d_typeClass d = Some c /\ x_exception x = Some e /\ derives w c e.
Proof. exact isValid_instance. Qed.
Print Assumptions C38_instances.
Theorem C38_namespaces : forall w pub x d, x_op x = NamespaceChoose ->
  isValid w pub x d = true -> d_kind d = KindNamespace.
Proof. exact isValid_namespace. Qed.
Print Assumptions C38_namespaces.

Definition declOf (qid : nat) (c : nat) : Decl :=
  {| d_qid := qid; d_emptyQid := false; d_emptyRange := false; d_kind := KindType; d_class := Some c;
     d_typeClass := None; d_member := None; d_inClassCtx := false; d_ctx := 0; d_visible := true; d_var := None;
     d_ident := qid; d_isFunction := false; d_line := 3 |}.
Definition ctxOf op forb exc := {| x_ctx := 0; x_parent := None; x_pos := 5; x_op := op; x_forbidden := forb; x_exception := exc |}.
(** Exception(0), MyException(1) extends it, an interface(2), an abstract(3) and a final class(4). *)
Definition lib : World :=
  [cls 0 [] KClass ModNone; cls 1 [Some 0] KClass ModFinal; cls 2 [] KInterface ModNone; cls 3 [] KClass ModAbstract].
Definition libPub (a b : nat) : bool := Nat.eqb a b || (Nat.eqb a 1 && Nat.eqb b 0).
Lemma libPub_ok : knowsBases lib libPub.
Proof.
  intros a b Ha Hb. split.
  - unfold libPub. intros H. apply orb_true_iff in H. destruct H as [H|H].
    + apply Nat.eqb_eq in H. subst. apply der_self.
    + apply andb_true_iff in H. destruct H as [H1 H2]. apply Nat.eqb_eq in H1, H2. subst.
      apply der_step with 0; [|apply der_self]. eexists. cbn. split; [reflexivity|]. split; [cbn; auto|lia].
  - intros D. clear Ha Hb. assert (S : forall a b, baseOf lib a b -> a = 1 /\ b = 0).
    { intros x y (c & Hc & Hin & _). destruct x as [|[|[|[|x]]]]; cbn in Hc.
      5: destruct x; discriminate.
      all: injection Hc as <-; cbn in Hin; try contradiction; destruct Hin as [Hin|[]]; injection Hin as <-; auto. }
    unfold libPub. destruct D as [a|a b c B D]; [rewrite Nat.eqb_refl; reflexivity|].
    apply S in B. destruct B as [-> ->]. inversion D as [|? ? ? B2 _]; subst; [reflexivity|]. apply S in B2.
    destruct B2 as [X _]. discriminate X.
Qed.
Example C38_case :
  let ds := [declOf 0 0; declOf 1 1; declOf 2 2; declOf 3 3] in
  let items op := map d_qid (visibleItems lib libPub (ctxOf op [] (Some 0)) (rev ds) []) in
  items NewClassChoose = [1; 0] /\ items ClassExtendsChoose = [3; 0] /\ items InterfaceChoose = [2] /\
  items ExceptionChoose = [1; 0] /\
  map d_qid (visibleItems lib libPub (ctxOf ClassExtendsChoose [0] (Some 0)) (rev ds) []) = [3].
Proof. repeat split. Qed.
(** [new] offers an interface that another file of the project declares. *)
Theorem C38_refuted : exists w pub x entries d, knowsBases w pub /\
  (forall e, x_exception x = Some e -> e < List.length w) /\ x_op x = NewClassChoose /\
  In d (allItems w pub x [] [] entries) /\
  exists ci c, d_class d = Some ci /\ nth_error w ci = Some c /\ cd_kind c = KInterface /\ ~ acceptable w x d.
Proof.
  exists lib, libPub, (ctxOf NewClassChoose [] (Some 0)), [{| mi_exception := false; mi_decl := declOf 2 2 |}], (declOf 2 2).
  split; [exact libPub_ok|]. split; [cbn; intros e H; injection H as <-; lia|]. split; [reflexivity|].
  split; [cbn; auto|]. do 2 eexists. split; [reflexivity|]. split; [reflexivity|]. split; [reflexivity|].
  intros (_ & ci & c & H1 & H2 & H3). injection H1 as <-. injection H2 as <-. cbn in H3. destruct H3. discriminate.
Qed.
Print Assumptions C38_refuted.
(** Likewise [implements] offers the interface that is already being implemented. *)
Theorem C38_forbidden_refuted : exists w pub x entries d, knowsBases w pub /\ x_op x = InterfaceChoose /\
  In d (allItems w pub x [] [] entries) /\ In (d_qid d) (x_forbidden x).
Proof.
  exists lib, libPub, (ctxOf InterfaceChoose [2] (Some 0)), [{| mi_exception := false; mi_decl := declOf 2 2 |}], (declOf 2 2).
  split; [exact libPub_ok|]. split; [reflexivity|]. split; cbn; auto.
Qed.
Print Assumptions C38_forbidden_refuted.

(** ** C35 *)
(** Whatever is offered may be used. *)
Theorem C35_sound : forall w pub op cur acc m o, knowsBases w pub ->
  (forall c, cur = Some c -> c < List.length w) -> acc < List.length w -> o < List.length w ->
  m_isMember m = true -> m_owner m = Some o ->
  memberOffered pub op cur (Some acc) m = true -> fitsOperator op m /\ phpVisible w cur o (m_access m).
Proof. exact offered_sound. Qed.
Print Assumptions C35_sound.
Theorem C35_items : forall w pub op cur containers m o, knowsBases w pub ->
  (forall c, cur = Some c -> c < List.length w) ->
  (forall acc l, In (acc, l) containers -> exists a, acc = Some a /\ a < List.length w) ->
  o < List.length w -> m_isMember m = true -> m_owner m = Some o ->
  In m (memberItems pub op cur containers) -> fitsOperator op m /\ phpVisible w cur o (m_access m).
Proof.
  intros w pub op cur containers m o KB HC HA HO HM HW H. unfold memberItems in H. apply in_flat_map in H.
  destruct H as ([acc l] & Hin & H). apply filter_In in H. destruct H as [_ H]. cbn in H.
  destruct (HA acc l Hin) as (a & -> & La). exact (offered_sound w pub op cur a m o KB HC La HO HM HW H).
Qed.
Print Assumptions C35_items.
(** Full statement: for every current class; see the refutations below. *)
Theorem C35_exact_partial : forall w pub op cur acc m o, knowsBases w pub ->
  (forall c, cur = Some c -> c < List.length w) -> acc < List.length w -> o < List.length w ->
  m_isMember m = true -> m_named m = true -> m_owner m = Some o -> derives w acc o ->
  match cur with
  | None => True
  | Some c => c = acc \/ (derives w c acc /\ ~ derives w acc c)
  end ->
  (memberOffered pub op cur (Some acc) m = true <-> fitsOperator op m /\ phpVisible w cur o (m_access m)).
Proof. exact offered_exact. Qed.
Print Assumptions C35_exact_partial.
Definition mbr n a st o := {| m_name := n; m_isMember := true; m_access := a; m_static := st; m_final := false;
  m_abstract := false; m_isFunction := true; m_owner := Some o; m_named := true |}.
Example C35_case :
  let ms := [mbr 1 Public false 1; mbr 2 Protected false 0; mbr 3 Private false 0; mbr 4 Private false 1; mbr 5 Public true 0] in
  let items op cur acc := map m_name (memberItems libPub op cur [(Some acc, ms)]) in
  items false None 1 = [1] /\ items false (Some 1) 1 = [1; 2; 4] /\ items true (Some 1) 1 = [5] /\
  items false (Some 1) 0 = [1; 2] /\ derives lib 1 0 /\ ~ derives lib 0 1.
Proof.
  cbn. repeat (split; [reflexivity|]). split.
  - apply libPub_ok; cbn; auto with arith.
  - intros H. apply libPub_ok in H; [|cbn; lia|cbn; lia]. discriminate H.
Qed.
(** Inside the base class, on an object of a derived class: its own private member is hidden. *)
Theorem C35_private_refuted : exists w pub cur acc m, knowsBases w pub /\ derives w acc cur /\
  m_isMember m = true /\ m_named m = true /\ m_owner m = Some cur /\ m_access m = Private /\
  fitsOperator false m /\ phpVisible w (Some cur) cur Private /\ memberOffered pub false (Some cur) (Some acc) m = false.
Proof.
  exists lib, libPub, 0, 1, (mbr 3 Private false 0). split; [exact libPub_ok|].
  split; [apply libPub_ok; cbn; auto with arith|]. repeat (split; [reflexivity|]). reflexivity.
Qed.
Print Assumptions C35_private_refuted.
(** The same for a protected member of a common base class, seen from a sibling. *)
Theorem C35_protected_refuted : exists w pub cur acc o m, knowsBases w pub /\ derives w cur o /\ derives w acc o /\
  m_isMember m = true /\ m_named m = true /\ m_owner m = Some o /\ m_access m = Protected /\
  fitsOperator false m /\ phpVisible w (Some cur) o Protected /\ memberOffered pub false (Some cur) (Some acc) m = false.
Proof.
  exists lib, libPub, 0, 1, 0, (mbr 3 Protected false 0). split; [exact libPub_ok|].
  split; [apply der_self|]. split; [apply libPub_ok; cbn; auto with arith|]. repeat (split; [reflexivity|]).
  split; [|reflexivity]. exists 0. split; [reflexivity|]. left. apply der_self.
Qed.
Print Assumptions C35_protected_refuted.

(** ** C36 *)
Theorem C36_offered : forall w pub cur c mods l m h, nth_error w cur = Some c -> ownFirst l ->
  In (m, h) (snd (classMemberItems w pub cur mods l)) ->
  (exists d, In (m, d) l /\ d <> 0) /\ m_access m <> Private /\ ~ (m_isFunction m = true /\ m_final m = true) /\
  (forall o, In (o, 0) l -> m_isMember o = true -> m_name o <> m_name m) /\
  fitsModifiers mods m /\ (exists o, m_owner m = Some o /\ pub cur o = true) /\
  h = (if m_isFunction m then if m_abstract m then Implement else Override else OverrideVar).
Proof. exact overrides_main. Qed.
Print Assumptions C36_offered.
Theorem C36_once : forall w pub cur mods l,
  NoDup (map (fun p => m_name (fst p)) (snd (classMemberItems w pub cur mods l))).
Proof. exact overrides_once. Qed.
Print Assumptions C36_once.
(** With no modifier typed, every inherited member that may be overridden is offered, unless
    an earlier entry of the list has the same name. *)
Theorem C36_complete : forall w pub cur c pre m d suf o, nth_error w cur = Some c -> cd_bases c <> [] ->
  d <> 0 -> m_isMember m = true -> m_access m <> Private -> m_final m = false -> m_owner m = Some o ->
  pub cur o = true -> (forall p, In p pre -> m_name (fst p) <> m_name m) ->
  exists h, In (m, h) (snd (classMemberItems w pub cur [] (pre ++ (m, d) :: suf))).
Proof.
  intros w pub cur c pre m d suf o HC HB ND HM HA HF HO HP NP. exists (helperOf m).
  unfold classMemberItems. rewrite HC. destruct (cd_mod c); cbn [keywordsFor];
  (destruct (cd_bases c); [congruence|]); apply overrides_complete; auto;
  try (intros p Hp E; exfalso; exact (NP p Hp E));
  (split; [exact HM|]); (split; [exact HA|]); (split; [auto|]); cbn; repeat (split; [discriminate|]); exists o; auto.
Qed.
Print Assumptions C36_complete.
(** The keywords offered: none twice, none already typed, no second visibility, nothing after
    [function], [var] and [const] only at the start, [abstract] only in abstract classes. *)
Theorem C36_keywords : forall w pub cur c mods l, nth_error w cur = Some c ->
  let ks := fst (classMemberItems w pub cur mods l) in
  NoDup ks /\ (forall k, In k ks -> ~ In k mods) /\
  (In WAbstract ks -> cd_mod c = ModAbstract) /\
  (forall k, In k ks -> k = WPublic \/ k = WProtected \/ k = WPrivate ->
     ~ In WPublic mods /\ ~ In WProtected mods /\ ~ In WPrivate mods) /\
  (In WFunction mods -> ks = []) /\
  (mods <> [] -> ~ In WVar ks /\ ~ In WConst ks).
Proof.
  intros w pub cur c mods l HC. unfold classMemberItems. rewrite HC.
  pose proof (keywords_spec (cd_mod c) mods) as K. destruct (keywordsFor (cd_mod c) mods). exact K.
Qed.
Print Assumptions C36_keywords.
Example C36_case :
  let l := [(mbr 7 Public false 1, 0); (mbr 7 Public false 0, 1); (mbr 8 Protected false 0, 1);
            (mbr 9 Private false 0, 1); (mbr 8 Public false 0, 2); (mbr 6 Public true 0, 1)] in
  let off mods := map (fun p => m_name (fst p)) (snd (classMemberItems lib libPub 1 mods l)) in
  ownFirst l /\ off [] = [8; 6] /\ off [WFunction; WProtected] = [8] /\ off [WStatic] = [6] /\ off [WPrivate] = [].
Proof.
  cbn. split; [|auto]. eexists [_], _. split; [reflexivity|]. split; cbn.
  - intros p [<-|[]]. reflexivity.
  - intros p H. repeat (destruct H as [<-|H]; [discriminate|]). contradiction.
Qed.

(** ** C52 *)
Theorem C52_once : forall w pub x decls, NoDup (variableNames (visibleItems w pub x (rev decls) [])).
Proof. intros w pub x decls. exact (proj1 (visible_nodup w pub x (rev decls) [])). Qed.
Print Assumptions C52_once.
Theorem C52_local : forall w pub x decls d, In d (visibleItems w pub x (rev decls) []) ->
  In d decls /\ ~ foreignVariable x d.
Proof.
  intros w pub x decls d H. split; [apply in_rev; exact (proj2 (visible_valid _ _ _ _ _ _ H))|].
  exact (visible_local _ _ _ _ _ _ H).
Qed.
Print Assumptions C52_local.
(** Full statement: a variable is offered when any of its declarations may be; proved for the
    last declaration of the name. *)
Theorem C52_offered_partial : forall w pub x pre d suf, d_kind d = KindInstance -> ~ foreignVariable x d ->
  isValid w pub x d = true ->
  (forall a, In a suf -> d_kind a = KindInstance -> ~ foreignVariable x a -> d_ident a <> d_ident d) ->
  In d (visibleItems w pub x (rev (pre ++ d :: suf)) []).
Proof.
  intros w pub x pre d suf EK NF V NP. rewrite rev_app_distr. cbn. rewrite <- app_assoc. cbn.
  apply visible_var; auto. intros a Ha. apply NP. apply in_rev. exact Ha.
Qed.
Print Assumptions C52_offered_partial.
(** In particular a variable of the current scope whose last declaration is not behind the cursor
    is offered ... *)
Theorem C52_before_partial : forall w pub x pre d suf, x_op x = NoMemberAccess -> d_kind d = KindInstance ->
  d_ctx d = x_ctx x -> d_inClassCtx d = false -> d_emptyRange d = false -> d_line d <= x_pos x ->
  (forall a, In a suf -> d_kind a = KindInstance -> ~ foreignVariable x a -> d_ident a <> d_ident d) ->
  In d (visibleItems w pub x (rev (pre ++ d :: suf)) []).
Proof.
  intros w pub x pre d suf EO EK EC EI ER EL NP. apply C52_offered_partial; auto.
  - intros (_ & H & _). contradiction.
  - unfold isValid. rewrite ER, EK, EO, EI, EC, Nat.eqb_refl. replace (x_pos x <? d_line d) with false by (symmetry; apply Nat.ltb_ge; exact EL).
    destruct (d_isFunction d); reflexivity.
Qed.
Print Assumptions C52_before_partial.
(** ... and nothing but functions is offered that the current scope declares behind the cursor. *)
Theorem C52_not_after : forall w pub x decls d, x_op x = NoMemberAccess -> In d (visibleItems w pub x (rev decls) []) ->
  d_isFunction d = false -> d_ctx d = x_ctx x -> d_line d <= x_pos x.
Proof.
  intros w pub x decls d EO H EF EC. apply visible_valid in H. destruct H as [H _]. unfold isValid in H. rewrite EO, EF, EC, Nat.eqb_refl in H.
  destruct (Nat.le_gt_cases (d_line d) (x_pos x)) as [E|E]; [exact E|exfalso]. apply Nat.ltb_lt in E. rewrite E in H.
  cbn [negb andb isClassOp] in H. destruct (d_emptyRange d); [discriminate|]. destruct (match d_kind d with KindType => d_emptyQid d | _ => false end); [discriminate|].
  destruct (d_inClassCtx d && _ && _); discriminate.
Qed.
Print Assumptions C52_not_after.
(** Of the variables of files that are not imported only superglobals are offered. *)
Theorem C52_other_files : forall w pub x others d, In d (modelItems w pub x others) -> In d others /\ d_inClassCtx d = false /\ d_var d <> Some false.
Proof.
  intros w pub x others d H. unfold modelItems in H. apply filter_In in H. destruct H as [H E]. apply andb_true_iff in E as [E1 E2].
  apply andb_true_iff in E1 as [E1 _]. split; [exact H|]. split; [destruct (d_inClassCtx d); [discriminate|reflexivity]|]. intros K. rewrite K in E2. discriminate.
Qed.
Print Assumptions C52_other_files.
Definition var n line := {| d_qid := n; d_emptyQid := false; d_emptyRange := false; d_kind := KindInstance;
  d_class := None; d_typeClass := None; d_member := None; d_inClassCtx := false; d_ctx := 0; d_visible := false;
  d_var := Some false; d_ident := n; d_isFunction := false; d_line := line |}.
Example C52_case : visibleItems lib libPub (ctxOf NoMemberAccess [] None) (rev [var 1 1; var 2 2; var 1 4; var 3 9]) []
  = [var 1 4; var 2 2].
Proof. reflexivity. Qed.
(** [$a = 1; | $a = "x";]: a variable declared before the cursor, and again after it, is not
    offered at all. *)
Theorem C52_refuted : exists w pub x decls d, In d decls /\ x_op x = NoMemberAccess /\ d_ctx d = x_ctx x /\
  d_kind d = KindInstance /\ d_line d < x_pos x /\ isValid w pub x d = true /\
  ~ In (d_ident d) (variableNames (visibleItems w pub x (rev decls) [])).
Proof.
  exists lib, libPub, (ctxOf NoMemberAccess [] None), [var 1 1; var 1 9], (var 1 1).
  split; [now left|]. repeat (split; [reflexivity|]). split; [cbn; lia|]. split; [reflexivity|]. cbn. auto.
Qed.
Print Assumptions C52_refuted.
(** class A { private $x; } class B extends A { function f($x) { | } }: the parameter is not offered, as the class of the
    method or a base class of it has a property of its name; here not even that is offered. *)
Definition prop n access ctx := {| d_qid := n; d_emptyQid := false; d_emptyRange := false; d_kind := KindInstance;
  d_class := None; d_typeClass := None; d_member := Some access; d_inClassCtx := true; d_ctx := ctx; d_visible := false;
  d_var := None; d_ident := n; d_isFunction := false; d_line := 0 |}.
Theorem C52_property_refuted : forall w pub access,
  let x := {| x_ctx := 0; x_parent := Some 7; x_pos := 5; x_op := NoMemberAccess; x_forbidden := []; x_exception := None |} in
  isValid w pub x (var 1 1) = true /\ d_ctx (var 1 1) = x_ctx x /\
  ~ In (var 1 1) (visibleItems w pub x (rev [var 1 1; prop 1 access 7]) []) /\
  visibleItems w pub x (rev [var 1 1; prop 1 Private 8]) [] = [].
Proof.
  intros w pub access. split; [reflexivity|]. split; [reflexivity|]. split; [|reflexivity].
  destruct access; cbn; intros [H|[]]; discriminate H.
Qed.
Print Assumptions C52_property_refuted.
