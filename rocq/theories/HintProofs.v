(** Proofs for C23 and C25 (proof file). *)
From Verif Require Export HintSpec MergeProofs.
Open Scope nat_scope.

Section P.
Variable cc : CharClass.
Hypothesis OK : ascii_ok cc.

Lemma fold_ascii s : Forall (fun c => (c < 128)%N) s -> map (foldCase cc) s = map asciiToLower s.
Proof. induction 1 as [|c s H _ IH]; cbn; auto. now rewrite (ok_fold _ OK) , IH. Qed.
Definition lowerName (n : string) : bool := forallb (fun c => N.ltb c 128 && N.eqb (asciiToLower c) c) (str n).
Lemma eqsCI_lower s n : lowerName n = true -> eqsCI cc s (str n) = eqs (map (foldCase cc) s) (str n).
Proof.
  intros H. unfold eqsCI. f_equal. unfold lowerName in H. rewrite forallb_forall in H.
  rewrite fold_ascii.
  - rewrite <- (map_id (str n)) at 2. apply map_ext_in. intros c Hc. apply H in Hc. apply andb_true_iff in Hc as [_ Hc]. now apply N.eqb_eq in Hc.
  - apply Forall_forall. intros c Hc. apply H in Hc. apply andb_true_iff in Hc as [Hc _]. now apply N.ltb_lt in Hc.
Qed.

Section T.
Variable traversable : option ty.
Notation altAllows := (altAllows cc traversable).
Notation altKnown := (altKnown cc traversable).
Notation altType := (altType cc traversable).

Lemma eqs_lit F a b : eqs F a = true -> eqs a b = false -> eqs F b = false.
Proof. intros H H'. apply eqs_eq in H. now subst. Qed.

Lemma builtin_only s cls n k a : In (n, k) builtinHints -> eqsCI cc s (str n) = true -> altAllows (AGeneric (GName s cls)) a -> a = Integral k.
Proof.
  intros Hin Hs Ha.
  assert (HL : forall n k, In (n, k) (("iterable", KNone) :: builtinHints)%string -> eqsCI cc s (str n) = eqs (map (foldCase cc) s) (str n)).
  { intros n' k' H'. apply eqsCI_lower. cbn in H'. repeat (destruct H' as [H'|H']; [injection H' as <- <-; reflexivity|]). destruct H'. }
  rewrite (HL n k) in Hs by (right; exact Hin). apply eqs_eq in Hs.
  inversion Ha as [| | |s0 cls0 n0 k0 Hb Hc|s0 cls0 Hc|s0 cls0 t0 a0 Hc Ht Hi|s0 c0 a0 Hn Hc Hi]; subst.
  - rewrite (HL n0 k0) in Hc by (right; auto). rewrite Hs in Hc. apply eqs_eq in Hc.
    clear -Hb Hc Hin. cbn in Hin, Hb.
    repeat (destruct Hin as [Hin|Hin]; [injection Hin as <- <-; repeat (destruct Hb as [Hb|Hb]; [injection Hb as <- <-; first [reflexivity|discriminate Hc]|]); destruct Hb|]). destruct Hin.
  - rewrite (HL "iterable"%string KNone) in Hc by (left; auto). rewrite Hs in Hc. exfalso. clear -Hc Hin. cbn in Hin.
    repeat (destruct Hin as [Hin|Hin]; [injection Hin as <- <-; discriminate Hc|]). destruct Hin.
  - rewrite (HL "iterable"%string KNone) in Hc by (left; auto). rewrite Hs in Hc. exfalso. clear -Hc Hin. cbn in Hin.
    repeat (destruct Hin as [Hin|Hin]; [injection Hin as <- <-; discriminate Hc|]). destruct Hin.
  - exfalso. specialize (Hn n k Hin). rewrite (HL n k) in Hn by (right; exact Hin). rewrite Hs in Hn.
    assert (E : eqs (str n) (str n) = true) by now apply eqs_eq. congruence.
Qed.

Lemma alt_known k : altKnown k -> exists t, altType k = Some t /\ forall a, In a (atoms t) <-> altAllows k a.
Proof.
  destruct k as [| |g|]; intros HK; unfold HintSpec.altKnown in HK; unfold HintModel.altType.
  - eexists; split; [reflexivity|]. intros a. cbn. split; [intros [<-|[]]; constructor|intros H; inversion H; auto].
  - eexists; split; [reflexivity|]. intros a. cbn. split; [intros [<-|[]]; constructor|intros H; inversion H; auto].
  - destruct g as [|s cls].
    { eexists; split; [reflexivity|]. intros a. cbn. split; [intros [<-|[]]; constructor|intros H; inversion H; auto]. }
    assert (HB : forall n k, In (n, k) builtinHints -> eqsCI cc s (str n) = true -> genericHint cc traversable (GName s cls) = Some (Integral k) ->
      exists t, genericHint cc traversable (GName s cls) = Some t /\ forall a, In a (atoms t) <-> altAllows (AGeneric (GName s cls)) a).
    { intros n k Hin Hs E. exists (Integral k). split; auto. intros a. cbn. split.
      - intros [<-|[]]. econstructor; eauto.
      - intros H. left. symmetry. eapply builtin_only; eauto. }
    unfold genericHint, isName in *.
    destruct (eqsCI cc s (str "bool")) eqn:E1; [apply (HB "bool"%string KBool); cbn; auto|].
    destruct (eqsCI cc s (str "float")) eqn:E2; [apply (HB "float"%string KFloat); cbn; auto|].
    destruct (eqsCI cc s (str "int")) eqn:E3; [apply (HB "int"%string KInt); cbn; auto|].
    destruct (eqsCI cc s (str "string")) eqn:E4; [apply (HB "string"%string KString); cbn; auto 6|].
    destruct (eqsCI cc s (str "object")) eqn:E5; [apply (HB "object"%string KObject); cbn; auto 7|].
    destruct (eqsCI cc s (str "mixed")) eqn:E6; [apply (HB "mixed"%string KMixed); cbn; auto 8|].
    assert (HN : forall n k, In (n, k) builtinHints -> eqsCI cc s (str n) = false).
    { intros n k Hin. cbn in Hin. repeat (destruct Hin as [Hin|Hin]; [injection Hin as <- <-; assumption|]). destruct Hin. }
    clear HB. destruct HK as [[n [k [Hin Hs]]]|[[Hi Ht]|[_ [Hi Hc]]]].
    + rewrite (HN n k Hin) in Hs. discriminate.
    + rewrite Hi. destruct traversable as [t|] eqn:Et; [|congruence]. eexists. split; [reflexivity|]. intros a. cbn [atoms].
      rewrite atoms_addT. change (addT [] (Integral KArray)) with [Integral KArray]. cbn [flat_map atoms app In]. split.
      * intros [[<-|[]]|H]; [now apply AAIterA|eapply AAIterT; eauto].
      * intros H. inversion H as [| | |s0 cls0 n0 k0 Hb Hc|s0 cls0 Hc|s0 cls0 t0 a0 Hc Ht' Hi'|s0 c0 a0 Hn Hc Hi']; subst; auto.
        -- rewrite (HN n0 k0 Hb) in Hc. discriminate.
        -- injection Ht' as <-. auto.
        -- congruence.
    + rewrite Hi. destruct cls as [c|]; [|congruence]. exists c. split; auto. intros a. split; [intros H; apply AAClass; auto|].
      intros H. inversion H as [| | |s0 cls0 n0 k0 Hb Hc'|s0 cls0 Hc'|s0 cls0 t0 a0 Hc' Ht' Hi'|s0 c0 a0 Hn Hc' Hi']; subst; try congruence.
      rewrite (HN n0 k0 Hb) in Hc'. discriminate.
  - destruct HK.
Qed.

Definition U (t : ty) : list ty := match t with Unsure u => u | _ => addT [] t end.
Lemma atoms_U t a : In a (flat_map atoms (U t)) <-> In a (atoms t).
Proof. destruct t; cbn; rewrite ?app_nil_r; tauto. Qed.

Lemma hintRest_ok l : Forall (fun x => altKnown (a_kind x)) l -> forall u, exists v, hintRest cc traversable l u = Some v /\
  forall a, In a (flat_map atoms v) <-> In a (flat_map atoms u) \/ (exists x, In x l /\ altAllows (a_kind x) a) \/ (a = Integral KNull /\ exists x, In x l /\ a_nullable x = true).
Proof.
  induction 1 as [|x l Hx _ IH]; intros u.
  - exists u. split; auto. intros a. split; auto. intros [H|[[x [[] _]]|[_ [x [[] _]]]]]; auto.
  - cbn [hintRest]. destruct (alt_known _ Hx) as (t & Et & Ha).
    assert (E : match a_kind x with AOther => Some u | k => match altType k with Some t => Some (addT u t) | None => None end end = Some (addT u t)).
    { destruct (a_kind x); rewrite ?Et; auto. destruct Hx. }
    rewrite E. destruct (IH (if a_nullable x then addT (addT u t) (Integral KNull) else addT u t)) as (v & Ev & Hv). exists v. split; auto.
    intros a. rewrite Hv. clear Hv E Ev IH. destruct (a_nullable x) eqn:En.
    + rewrite !atoms_addT. cbn [atoms]. rewrite Ha. cbn [In]. split.
      * intros [[[H|H]|[<-|[]]]|[[y [H1 H2]]|[H1 [y [H2 H3]]]]]; auto.
        -- right. left. exists x. auto.
        -- right. right. split; auto. exists x. auto.
        -- right. left. exists y. auto.
        -- right. right. split; auto. exists y. auto.
      * intros [H|[[y [[<-|H1] H2]]|[-> [y [[<-|H1] H2]]]]]; auto.
        -- right. left. exists y. auto.
    + rewrite !atoms_addT, Ha. split.
      * intros [[H|H]|[[y [H1 H2]]|[H1 [y [H2 H3]]]]]; auto.
        -- right. left. exists x. cbn. auto.
        -- right. left. exists y. cbn. auto.
        -- right. right. split; auto. exists y. cbn. auto.
      * intros [H|[[y [[<-|H1] H2]]|[-> [y [[<-|H1] H2]]]]]; auto.
        -- right. left. exists y. auto.
        -- congruence.
        -- right. right. split; auto. exists y. auto.
Qed.

Lemma hint_ok l : l <> [] -> Forall (fun x => altKnown (a_kind x)) l -> exists t, hintType cc traversable l = Some (Some t) /\
  forall a, In a (atoms t) <-> hintAllows cc traversable l a.
Proof.
  intros Hne HF. destruct l as [|x r]; [congruence|]. inversion HF as [|? ? Hx Hr]; subst.
  destruct (alt_known _ Hx) as (t & Et & Ha). unfold hintType. rewrite Et. destruct r as [|y r].
  - destruct (a_nullable x) eqn:En.
    + exists (Unsure (addT (U t) (Integral KNull))). split; [destruct t; reflexivity|]. intros a. cbn [atoms]. rewrite atoms_addT, atoms_U, Ha.
      unfold hintAllows. cbn. rewrite En. split.
      * intros [H|[<-|[]]]; [left; exists x; auto|right; auto].
      * intros [[z [[<-|[]] H]]|[-> _]]; auto.
    + exists t. split; auto. intros a. rewrite Ha. unfold hintAllows. cbn. rewrite En. split.
      * intros H. left. exists x. auto.
      * intros [[z [[<-|[]] H]]|[_ H]]; [auto|discriminate].
  - destruct (hintRest_ok _ Hr (U t)) as (v & Ev & Hv).
    exists (Unsure v). fold (U t). rewrite Ev. split; auto. intros a. cbn [atoms]. rewrite Hv, atoms_U, Ha. unfold hintAllows. split.
    + intros [H|[[z [H1 H2]]|[H1 [z [H2 H3]]]]].
      * left. exists x. cbn. auto.
      * left. exists z. cbn in *. auto.
      * right. split; auto. exists z. auto.
    + intros [[z [[<-|H1] H2]]|[-> [z [H1 H2]]]]; auto.
      * right. left. exists z. auto.
      * right. right. split; auto. exists z. auto.
Qed.

Lemma param_hint p l : p_hint p = Some l -> l <> [] -> Forall (fun x => altKnown (a_kind x)) l ->
  exists b, parameterType cc traversable p = Some (wrap (p_ref p) (p_variadic p) b) /\
    forall a, In a (atoms b) <-> hintAllows cc traversable l a \/ (a = Integral KNull /\ p_default p = Some (Some (Integral KNull))).
Proof.
  intros Hh Hne HF. destruct (hint_ok l Hne HF) as (t & Et & Ha). unfold parameterType. rewrite Hh, Et.
  destruct (p_default p) as [dt|] eqn:Ed.
  - destruct (isNullT dt) eqn:En.
    + exists (Unsure (addT (U t) (Integral KNull))). split.
      * unfold wrap. destruct t; reflexivity.
      * intros a. cbn [atoms]. rewrite atoms_addT, atoms_U, Ha. cbn. destruct dt as [[[]| | | | |]|]; try discriminate. split.
        -- intros [H|[<-|[]]]; auto.
        -- intros [H|[-> _]]; auto.
    + exists t. split; [reflexivity|]. intros a. rewrite Ha. split; auto. intros [H|[_ H]]; auto. injection H as ->. discriminate.
  - exists t. split; [reflexivity|]. intros a. rewrite Ha. split; auto. intros [H|[_ H]]; [auto|discriminate].
Qed.

(** Without a usable hint. *)
Definition fallback (p : param) : ty :=
  match p_default p with Some (Some t) => t | _ => match p_doc p with Some t => t | None => Integral KMixed end end.
Lemma param_nohint p : p_hint p = None \/ (exists x, p_hint p = Some [x] /\ altType (a_kind x) = None) ->
  parameterType cc traversable p = Some (wrap (p_ref p) (p_variadic p) (fallback p)).
Proof.
  intros H. unfold parameterType. replace (match p_hint p with Some l => hintType cc traversable l | None => Some None end) with (Some (@None ty)).
  - unfold wrap, fallback. destruct (p_default p) as [[t|]|]; reflexivity.
  - destruct H as [->|[x [-> Hx]]]; [reflexivity|]. cbn. now rewrite Hx.
Qed.

Lemma property_hint l doc : l <> [] -> Forall (fun x => altKnown (a_kind x)) l ->
  exists b, propertyType cc traversable (Some l) doc = Some b /\ returnType cc traversable (Some l) doc = Some (Some b) /\
    forall a, In a (atoms b) <-> hintAllows cc traversable l a.
Proof.
  intros Hne HF. destruct (hint_ok l Hne HF) as (t & Et & Ha). unfold propertyType, returnType. rewrite Et. eauto.
Qed.
Lemma property_nohint hint doc : hint = None \/ (exists x, hint = Some [x] /\ altType (a_kind x) = None) ->
  propertyType cc traversable hint doc = Some (match doc with Some t => t | None => Integral KMixed end) /\
  returnType cc traversable hint doc = Some doc.
Proof. intros H. unfold propertyType, returnType. destruct H as [->|[x [-> Hx]]]; [auto|]. cbn. rewrite Hx. auto. Qed.
End T.

(** * C25 *)
Section D.
Variable selfType : option ty.
Variable findClass : qstring -> option ty.
Notation parseSimpleType := (parseSimpleType cc selfType findClass).
Notation parsePart := (parsePart cc selfType findClass).
Notation parseType := (parseType cc selfType findClass).

Definition lits : list string := (map fst docNames ++ selfNames)%list.
Lemma lits_lower n : In n lits -> lowerName n = true.
Proof. cbn. intros H. repeat (destruct H as [H|H]; [subst; reflexivity|]). destruct H. Qed.

(** parseSimpleType through the folded name *)
Lemma simple_fold s n : In n lits -> isName cc s n = eqs (map (foldCase cc) s) (str n).
Proof. intros H. apply eqsCI_lower. now apply lits_lower. Qed.
Ltac fold_names s := unfold HintModel.parseSimpleType;
  repeat match goal with |- context [isName cc s ?n] => rewrite (simple_fold s n) by (cbn; tauto) end.

Lemma simple_scalar s n k : In (n, k) docNames -> eqsCI cc s (str n) = true -> parseSimpleType s = Integral k.
Proof.
  intros Hin Hs. assert (HL : In n lits) by (apply in_or_app; left; apply (in_map fst _ (n, k) Hin)).
  rewrite eqsCI_lower in Hs by now apply lits_lower. apply eqs_eq in Hs. fold_names s. rewrite Hs. clear -Hin. cbn in Hin.
  repeat (destruct Hin as [Hin|Hin]; [injection Hin as <- <-; reflexivity|]). destruct Hin.
Qed.
Lemma simple_self s n : In n selfNames -> eqsCI cc s (str n) = true ->
  parseSimpleType s = match selfType with Some t => t | None => Integral KNone end.
Proof.
  intros Hin Hs. assert (HL : In n lits) by (apply in_or_app; right; exact Hin).
  rewrite eqsCI_lower in Hs by now apply lits_lower. apply eqs_eq in Hs. fold_names s. rewrite Hs. clear -Hin. cbn in Hin.
  repeat (destruct Hin as [<-|Hin]; [reflexivity|]). destruct Hin.
Qed.
Lemma simple_class s : (forall n, In n lits -> eqsCI cc s (str n) = false) ->
  parseSimpleType s = match findClass (className cc s) with Some t => t | None => Integral KMixed end.
Proof.
  intros H. unfold HintModel.parseSimpleType, isName.
  repeat match goal with |- context [eqsCI cc s (str ?n)] => rewrite (H n) by (cbn; tauto) end. reflexivity.
Qed.

Lemma fold_union l : forall u, fold_left (fun u p => if isMixed (parsePart p) then u else addT u (parsePart p)) l u =
  fold_left addT (filter (fun t => negb (isMixed t)) (map parsePart l)) u.
Proof. induction l as [|p l IH]; intros u; cbn; auto. rewrite IH. destruct (isMixed (parsePart p)); reflexivity. Qed.
Lemma fold_firsts l : fold_left addT l [] = firsts l.
Proof.
  induction l as [|t l IH] using rev_ind; [reflexivity|]. rewrite fold_left_app, IH. cbn. now rewrite firsts_snoc.
Qed.
Lemma parse_union s : In cPIPE (trimmed cc s) ->
  parseType s = Unsure (firsts (filter (fun t => negb (isMixed t)) (map parsePart (HintModel.split cPIPE (trimmed cc s))))).
Proof.
  intros H. unfold HintModel.parseType. replace (existsb (N.eqb cPIPE) (trimmed cc s)) with true.
  - now rewrite fold_union, fold_firsts.
  - symmetry. apply existsb_exists. exists cPIPE. auto.
Qed.
Lemma endsWith_app s t : endsWith t (s ++ t) = true.
Proof. unfold endsWith. rewrite rev_app_distr. apply startsWith_spec. eauto. Qed.
Lemma parse_part_array s n : trimmed cc s = n ++ str "[]" -> parsePart s = Arr (parseSimpleType n).
Proof.
  intros H. unfold HintModel.parsePart. rewrite H, endsWith_app, app_length. cbn [List.length str].
  replace (List.length n + 2 - 2) with (List.length n) by lia. rewrite firstn_app, Nat.sub_diag, firstn_all. cbn. now rewrite app_nil_r.
Qed.
Lemma parse_part_simple s : (forall n, trimmed cc s <> n ++ str "[]") -> parsePart s = parseSimpleType (trimmed cc s).
Proof.
  intros H. unfold HintModel.parsePart. destruct (endsWith (str "[]") (trimmed cc s)) eqn:E; auto. exfalso.
  unfold endsWith in E. apply startsWith_spec in E as [t E]. apply (H (rev t)). rewrite <- (rev_involutive (trimmed cc s)), E, rev_app_distr. now rewrite rev_involutive.
Qed.
Lemma parse_single s : ~ In cPIPE (trimmed cc s) -> parseType s = parsePart s.
Proof.
  intros H. unfold HintModel.parseType. replace (existsb (N.eqb cPIPE) (trimmed cc s)) with false; auto.
  symmetry. apply not_true_is_false. intros E. apply existsb_exists in E as [c [H1 H2]]. apply N.eqb_eq in H2. subst. auto.
Qed.
End D.
End P.

(** trimmed and split mean what they say *)
Lemma trimL_spec cc s : exists a, s = a ++ trimL cc s /\ Forall (fun c => isSpace cc c = true) a /\ match trimL cc s with c :: _ => isSpace cc c = false | [] => True end.
Proof.
  induction s as [|c s IH]; [exists []; cbn; auto|]. cbn. destruct (isSpace cc c) eqn:E.
  - destruct IH as (a & H1 & H2 & H3). exists (c :: a). cbn. rewrite <- H1. auto.
  - exists []. cbn. auto.
Qed.
Fixpoint join (sep : N) (l : list qstring) : qstring :=
  match l with [] => [] | [p] => p | p :: r => p ++ sep :: join sep r end.
Lemma split_spec sep s : join sep (HintModel.split sep s) = s /\ HintModel.split sep s <> [] /\ Forall (fun p => ~ In sep p) (HintModel.split sep s).
Proof.
  induction s as [|c s [IH1 [IH2 IH3]]]; cbn [HintModel.split].
  - cbn. split; auto. split; [discriminate|]. repeat constructor. intros [].
  - destruct (N.eqb_spec c sep) as [->|E].
    + split; [|split; [discriminate|constructor; auto]]. cbn. destruct (HintModel.split sep s); [congruence|]. rewrite IH1. reflexivity.
    + destruct (HintModel.split sep s) as [|p ps]; [congruence|]. split; [|split; [discriminate|]].
      * rewrite <- IH1. destruct ps; reflexivity.
      * inversion IH3; subst. constructor; auto. intros [H|H]; [congruence|auto].
Qed.
Lemma trimmed_spec cc s : exists a b, s = a ++ trimmed cc s ++ b /\ Forall (fun c => isSpace cc c = true) (a ++ b) /\
  match trimmed cc s with c :: _ => isSpace cc c = false | [] => True end /\
  match rev (trimmed cc s) with c :: _ => isSpace cc c = false | [] => True end.
Proof.
  unfold trimmed. destruct (trimL_spec cc s) as (a & H1 & H2 & H3). destruct (trimL_spec cc (rev (trimL cc s))) as (b & G1 & G2 & G3).
  exists a, (rev b). rewrite rev_involutive. split; [|split; [|split; auto]].
  - rewrite <- rev_app_distr, <- G1, rev_involutive. exact H1.
  - apply Forall_app. split; auto. now apply Forall_rev.
  - apply (f_equal (@rev N)) in G1. rewrite rev_involutive, rev_app_distr in G1. rewrite G1 in H3.
    destruct (rev (trimL cc (rev (trimL cc s)))); auto.
Qed.
