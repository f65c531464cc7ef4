From Verif Require Import Chars LookModel LookSpec.

Section P.
Variable cc : CharClass.

Lemma lower_same a b : lower cc a = lower cc b <-> sameUpToCase cc a b.
Proof.
  unfold sameUpToCase, lower. revert b. induction a as [|x a IH]; intros [|y b]; cbn; split; intros H;
    try discriminate; try constructor; try (inversion H; fail).
  - injection H; auto.
  - apply IH. injection H; auto.
  - inversion_clear H. f_equal; auto. now apply IH.
Qed.
Lemma lowers_same a b : map (lower cc) a = map (lower cc) b <-> samePath cc a b.
Proof.
  unfold samePath. revert b. induction a as [|x a IH]; intros [|y b]; cbn; split; intros H;
    try discriminate; try constructor; try (inversion H; fail).
  - apply lower_same. injection H; auto.
  - apply IH. injection H; auto.
  - inversion_clear H. f_equal; [now apply lower_same|now apply IH].
Qed.
Lemma pushParts_false l : pushParts cc false l = map (lower cc) l.
Proof. induction l as [|x [|y r] IH]; auto. cbn [map] in *. rewrite <- IH. reflexivity. Qed.
Lemma pushParts_true p x : pushParts cc true (p ++ [x]) = map (lower cc) p ++ [x].
Proof. induction p as [|y p IH]; auto. cbn [map app]. rewrite <- IH. destruct p; reflexivity. Qed.

Lemma spellings n1 n2 : identifierForNamespace cc n1 false = identifierForNamespace cc n2 false <->
  nsGlobal n1 = nsGlobal n2 /\ samePath cc (nsParts n1) (nsParts n2).
Proof.
  unfold identifierForNamespace. rewrite !pushParts_false, <- lowers_same. split.
  - intros H. injection H. auto.
  - intros [-> ->]. auto.
Qed.
Lemma constants n1 n2 p1 k1 p2 k2 : nsParts n1 = p1 ++ [k1] -> nsParts n2 = p2 ++ [k2] ->
  (identifierForNamespace cc n1 true = identifierForNamespace cc n2 true <->
   nsGlobal n1 = nsGlobal n2 /\ samePath cc p1 p2 /\ k1 = k2).
Proof.
  intros H1 H2. unfold identifierForNamespace. rewrite H1, H2, !pushParts_true, <- lowers_same. split.
  - intros H. injection H as E1 E2. apply app_inj_tail in E2. destruct E2. auto.
  - intros (-> & -> & ->). auto.
Qed.
Lemma groups prefix inner k : inner <> [] ->
  identifierForGroup cc prefix inner k = identifierForNamespace cc {| nsGlobal := nsGlobal prefix; nsParts := nsParts prefix ++ inner |} k.
Proof.
  intros H. unfold identifierForGroup, identifierForNamespace. cbn. f_equal.
  destruct (exists_last H) as (i & x & ->). destruct k.
  - rewrite app_assoc, !pushParts_true, map_app. now rewrite <- app_assoc.
  - rewrite !pushParts_false. now rewrite (map_app _ (nsParts prefix)).
Qed.

Lemma lookup_spelling w ch t a b : t = ClassDT \/ t = FunctionDT -> sameUpToCase cc a b ->
  findByNode cc w ch t a = findByNode cc w ch t b.
Proof. intros [-> | ->] H; unfold findByNode; now rewrite (proj2 (lower_same a b) H). Qed.

Lemma eqParts_eq a b : eqParts a b = true <-> a = b.
Proof.
  unfold eqParts. revert b. induction a as [|x a IH]; intros [|y b]; cbn; split; intros H; try discriminate; auto.
  - rewrite !andb_true_iff in H. destruct H as (H1 & H2 & H3). apply eqs_eq in H2. subst y. f_equal.
    apply IH. rewrite andb_true_iff. auto.
  - injection H. intros -> ->. rewrite (proj2 (eqs_eq y y) eq_refl).
    assert (X := proj2 (IH b) eq_refl). apply andb_true_iff in X. rewrite (proj1 X), (proj2 X). auto.
Qed.

Lemma kind_ns c : isKind CNamespace c = true <-> cKind c = CNamespace.
Proof. unfold isKind. destruct (cKind c); split; congruence. Qed.
Lemma kind_class c : isKind CClass c = true <-> cKind c = CClass.
Proof. unfold isKind. destruct (cKind c); split; congruence. Qed.
Lemma inNamespace_fun ch p : inNamespace ch p ->
  p = match findNamespace ch with Some sc => scopeIdentifier sc | None => [] end.
Proof.
  induction 1 as [c up E|c up p E H IH|]; cbn [findNamespace]; auto.
  - now rewrite (proj2 (kind_ns c) E).
  - destruct (isKind CNamespace c) eqn:K; auto. apply kind_ns in K. congruence.
Qed.
Lemma fullName_fun ch id l : fullName ch id l ->
  (if qGlobal id then qParts id else identifierWithNamespace (qParts id) ch) = l.
Proof.
  intros [l'|l' p H]; cbn; auto. unfold identifierWithNamespace. apply inNamespace_fun in H.
  destruct (findNamespace ch); subst; auto.
Qed.

Lemma find_usable t l d : findInTable t l = Some d -> exists e, In e l /\ eLang e = Some true /\ eDecl e = Some d /\ isMatch d t = true.
Proof.
  induction l as [|e r IH]; cbn; try discriminate. intros H. destruct (usable t e) as [x|] eqn:E.
  - injection H as ->. exists e. unfold usable in E. destruct (eLang e) as [[]|]; try discriminate.
    destruct (eDecl e); try discriminate. destruct (isMatch d0 t) eqn:M; try discriminate. injection E as ->. auto.
  - destruct (IH H) as (e' & A & B). exists e'. cbn. tauto.
Qed.
Lemma find_usable_none t l e d : findInTable t l = None -> In e l -> eLang e = Some true -> eDecl e = Some d -> isMatch d t = false.
Proof.
  induction l as [|x r IH]; cbn; [tauto|]. intros H [<-|H'] HL HD.
  - unfold usable in H. rewrite HL, HD in H. destruct (isMatch d t); congruence.
  - destruct (usable t x); try discriminate. auto.
Qed.

Definition notReserved (t : DeclarationType) (id : QId) : Prop := t = ClassDT -> ~ reservedName id.
Lemma helper_plain w ch id t : notReserved t id ->
  findDeclarationImportHelper w ch id t =
  let lookup := if qGlobal id then qParts id else identifierWithNamespace (qParts id) ch in
    match find (fun d => isMatch d t) (wFind w lookup) with
    | Some d => (Some d, [])
    | None =>
        if wInternal w then (None, [])
        else match t with
             | GlobalVariableDT => (None, [])
             | _ => match findInTable t (wTable w lookup) with
                    | Some d => (Some d, [dTop d])
                    | None => (None, [])
                    end
             end
    end.
Proof.
  intros H. unfold findDeclarationImportHelper.
  destruct t; cbn [andb]; auto. specialize (H eq_refl).
  assert (X : forall n, In n selfNames -> eqParts (qParts id) [n] = false).
  { intros n Hn. destruct (eqParts (qParts id) [n]) eqn:E; auto. apply eqParts_eq in E. exfalso. apply H. exists n. auto. }
  rewrite !X by (cbn; auto). reflexivity.
Qed.

(** Every answer comes from the visible declarations or the table, under the full name, and is
    of the kind asked for. *)
Theorem found_sound w ch id t l d imp : notReserved t id -> fullName ch id l ->
  findDeclarationImportHelper w ch id t = (Some d, imp) ->
  isMatch d t = true /\
  ((In d (wFind w l) /\ imp = []) \/
   ((forall x, In x (wFind w l) -> isMatch x t = false) /\ t <> GlobalVariableDT /\ wInternal w = false /\ imp = [dTop d] /\
    exists e, In e (wTable w l) /\ eLang e = Some true /\ eDecl e = Some d)).
Proof.
  intros HR HF H. rewrite helper_plain in H by auto. cbn zeta in H. rewrite (fullName_fun ch id l HF) in H.
  destruct (find (fun d => isMatch d t) (wFind w l)) as [x|] eqn:E.
  - injection H as -> <-. apply find_some in E. tauto.
  - destruct (wInternal w); try discriminate.
    destruct t; try discriminate;
    (match type of H with context [findInTable ?t ?x] => destruct (findInTable t x) as [y|] eqn:T end; try discriminate;
     injection H as -> <-; destruct (find_usable _ _ _ T) as (e & A & B & C & D);
     split; auto; right; split; [intros x Hx; apply (find_none _ _ E x Hx)|]; split; [discriminate|]; split; auto; split; auto;
     exists e; auto).
Qed.
Theorem found_complete w ch id t l imp : notReserved t id -> fullName ch id l ->
  findDeclarationImportHelper w ch id t = (None, imp) ->
  imp = [] /\ (forall d, In d (wFind w l) -> isMatch d t = false) /\
  (wInternal w = false -> t <> GlobalVariableDT -> forall e d, In e (wTable w l) -> eLang e = Some true -> eDecl e = Some d -> isMatch d t = false).
Proof.
  intros HR HF H. rewrite helper_plain in H by auto. cbn zeta in H. rewrite (fullName_fun ch id l HF) in H.
  destruct (find (fun d => isMatch d t) (wFind w l)) as [x|] eqn:E; [discriminate|].
  assert (A : forall d, In d (wFind w l) -> isMatch d t = false) by (intros d Hd; apply (find_none _ _ E d Hd)).
  destruct (wInternal w).
  - injection H as <-. split; auto. split; auto. discriminate.
  - destruct t; try (injection H as <-; split; auto; split; auto; congruence);
    (match type of H with context [findInTable ?t ?x] => destruct (findInTable t x) as [y|] eqn:T end; try discriminate;
     injection H as <-; split; auto; split; auto; intros _ _ e d He HL HD; apply (find_usable_none _ _ e d T); auto).
Qed.

(** Kinds. *)
Lemma match_made d t w : makes w d -> dId d <> [] -> isMatch d t = true ->
  wanted t w \/ (t = ConstantDT /\ w = WVariable true) \/ (t = GlobalVariableDT /\ w = WDefine false)
  \/ (t = GlobalVariableDT /\ w = WProperty false).
Proof.
  intros M NE H. destruct t; cbn [isMatch] in H; destruct w; cbn [makes] in M; unfold isConst in H;
  repeat match goal with
  | M : _ /\ _ |- _ => destruct M
  end; try congruence;
  repeat match goal with
  | E : dIsClass d = _ |- _ => rewrite E in H
  | E : dIsFunction d = _ |- _ => rewrite E in H
  | E : dKind d = _ |- _ => rewrite E in H
  | E : dType d = _ |- _ => rewrite E in H
  | E : dCtx d = _ |- _ => rewrite E in H
  end; cbn in H; try discriminate; try congruence;
  cbn [wanted]; eauto 10;
  try (destruct hasValue; cbn in H; try discriminate; eauto 10);
  try (destruct constValue; cbn in H; try discriminate; eauto 10).
Qed.

(** A declared class or function is found under every spelling. *)
Theorem declared_found w ch t spelled used d p : t = ClassDT \/ t = FunctionDT ->
  ~ In (lower cc used) selfNames -> sameUpToCase cc spelled used ->
  inNamespace ch p -> dId d = p ++ [lower cc spelled] -> isMatch d t = true -> In d (wFind w (dId d)) ->
  exists d', fst (findByNode cc w ch t used) = Some d' /\ isMatch d' t = true /\ In d' (wFind w (dId d)).
Proof.
  intros Ht HR HS HN HI HM HIn.
  assert (E : findByNode cc w ch t used = findDeclarationImportHelper w ch (plainId (lower cc used)) t)
    by (destruct Ht as [-> | ->]; reflexivity).
  assert (NR : notReserved t (plainId (lower cc used))).
  { intros _ (n & Hn & X). cbn in X. injection X as X. rewrite X in HR. auto. }
  assert (F : fullName ch (plainId (lower cc used)) (dId d)).
  { rewrite HI, (proj2 (lower_same _ _) HS). apply fullLocal. auto. }
  rewrite E. destruct (findDeclarationImportHelper w ch (plainId (lower cc used)) t) as [[x|] imp] eqn:L; cbn.
  - destruct (found_sound w ch _ t _ x imp NR F L) as (A & [(B & _)|(B & _)]).
    + eauto.
    + rewrite (B d HIn) in HM. discriminate.
  - destruct (found_complete w ch _ t _ imp NR F L) as (_ & B & _). rewrite (B d HIn) in HM. discriminate.
Qed.

(** self, static, parent. *)
Lemma enclosing_sound ch k : enclosingClass ch = Some k -> insideClass ch k.
Proof.
  destruct ch as [|c [|p up]]; cbn [enclosingClass]; try discriminate; intros H; destruct (isKind CClass c) eqn:E; try discriminate.
  - apply kind_class in E. injection H as <-. now constructor.
  - apply kind_class in E. injection H as <-. now constructor.
  - destruct (isKind CClass p) eqn:E'; try discriminate. injection H as <-. apply kind_class in E'.
    constructor; [|now constructor]. intros X. apply kind_class in X. congruence.
Qed.
Lemma helper_self w ch n b : n = "self"%string \/ n = "static"%string ->
  findDeclarationImportHelper w ch {| qGlobal := b; qParts := [str n] |} ClassDT =
  (match enclosingClass ch with Some c => cOwner c | None => None end, []).
Proof. intros [-> | ->]; reflexivity. Qed.
Lemma helper_parent w ch b :
  findDeclarationImportHelper w ch {| qGlobal := b; qParts := [str "parent"] |} ClassDT =
  (match enclosingClass ch with Some c => firstClassImport (cImports c) | None => None end, []).
Proof. reflexivity. Qed.
Lemma firstClassImport_sound l d : firstClassImport l = Some d -> In (Some (CClass, Some d)) l.
Proof.
  induction l as [|[[k o]|] r IH]; cbn; try discriminate; intros H.
  - destruct k; auto. subst. auto.
  - auto.
Qed.

Theorem self_sound w ch n b d imp : n = "self"%string \/ n = "static"%string ->
  findDeclarationImportHelper w ch {| qGlobal := b; qParts := [str n] |} ClassDT = (Some d, imp) ->
  imp = [] /\ exists k, insideClass ch k /\ cOwner k = Some d.
Proof.
  intros Hn. rewrite helper_self by auto. intros H. destruct (enclosingClass ch) as [k|] eqn:E; try discriminate.
  injection H as H <-. split; auto. exists k. split; auto. now apply enclosing_sound.
Qed.
Theorem self_direct w n b c up : n = "self"%string \/ n = "static"%string -> cKind c = CClass ->
  findDeclarationImportHelper w (c :: up) {| qGlobal := b; qParts := [str n] |} ClassDT = (cOwner c, []) /\
  forall body, cKind body <> CClass ->
    findDeclarationImportHelper w (body :: c :: up) {| qGlobal := b; qParts := [str n] |} ClassDT = (cOwner c, []).
Proof.
  intros Hn E. split; [|intros body Hb]; rewrite helper_self by auto; cbn [enclosingClass].
  - now rewrite (proj2 (kind_class c) E).
  - rewrite (proj2 (kind_class c) E). destruct (isKind CClass body) eqn:X; auto. apply kind_class in X. congruence.
Qed.
Theorem parent_sound w ch b d imp :
  findDeclarationImportHelper w ch {| qGlobal := b; qParts := [str "parent"] |} ClassDT = (Some d, imp) ->
  imp = [] /\ exists k, insideClass ch k /\ In (Some (CClass, Some d)) (cImports k).
Proof.
  rewrite helper_parent. intros H. destruct (enclosingClass ch) as [k|] eqn:E; try discriminate.
  injection H as H <-. split; auto. exists k. split; [now apply enclosing_sound|now apply firstClassImport_sound].
Qed.

(** Redeclarations. *)
Lemma redecl_at before l i g : nth_error l i = Some g ->
  nth_error (redeclarations cc before l) i = Some (isGlobalRedeclaration cc (before ++ firstn i l) g).
Proof.
  revert before i. induction l as [|x l IH]; intros before [|i] H; cbn in *; try discriminate.
  - injection H as ->. now rewrite app_nil_r.
  - rewrite (IH (before ++ [x]) i H). now rewrite <- app_assoc.
Qed.
Lemma gKindEq_eq a b : gKindEq a b = true <-> a = b.
Proof. destruct a, b; cbn; split; congruence. Qed.
(** For declarations outside namespaces whose classes and functions are spelled in lower case
    the report is exact. *)
Theorem redecl_exact l i g :
  (forall x, In x l -> gNs x = [] /\ (gKind x <> GConstant -> lower cc (gName x) = gName x)) ->
  nth_error l i = Some g ->
  (nth_error (redeclarations cc [] l) i = Some true <->
   exists j e, (j < i)%nat /\ nth_error l j = Some e /\ gKind e = gKind g /\ gName e = gName g).
Proof.
  intros HL Hi. rewrite (redecl_at [] l i g Hi). cbn [app].
  assert (HG : forall x, In x l -> gId cc x = [gName x]).
  { intros x Hx. destruct (HL x Hx) as (A & B). unfold gId. rewrite A. cbn. destruct (gKind x); auto; now rewrite B. }
  assert (K : isGlobalRedeclaration cc (firstn i l) g = true <->
     exists j e, (j < i)%nat /\ nth_error l j = Some e /\ gKind e = gKind g /\ gName e = gName g).
  { unfold isGlobalRedeclaration. rewrite existsb_exists. split.
    - intros (e & He & H). rewrite andb_true_iff, eqParts_eq, gKindEq_eq in H. destruct H as (H1 & H2).
      assert (Hin : In e l) by (apply (In_nth_error) in He; destruct He as (j & Hj); rewrite <- (firstn_skipn i l); apply in_or_app; left; eapply nth_error_In; eauto).
      rewrite (HG e Hin) in H1. injection H1 as H1.
      apply In_nth_error in He. destruct He as (j & Hj). exists j, e.
      assert (Hlt : (j < List.length (firstn i l))%nat) by (apply nth_error_Some; congruence).
      rewrite firstn_length in Hlt. split; [lia|]. split; auto.
      rewrite <- (firstn_skipn i l). rewrite nth_error_app1; auto. rewrite firstn_length. lia.
    - intros (j & e & Hj & He & Hk & Hn). exists e. split.
      + assert (Hlt : (j < List.length l)%nat) by (apply nth_error_Some; congruence).
        rewrite <- (firstn_skipn i l) in He. rewrite nth_error_app1 in He by (rewrite firstn_length; lia).
        eapply nth_error_In; eauto.
      + rewrite (HG e) by (eapply nth_error_In; eauto). rewrite andb_true_iff, eqParts_eq, gKindEq_eq. now rewrite Hn. }
  rewrite <- K. split; [intros H; injection H; auto|intros ->; auto].
Qed.
End P.
