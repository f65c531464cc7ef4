(** Proofs for C69, first part: the walk appends what the pieces call for, and nothing else. *)
From Coq Require Import List String Relations.
From Verif Require Import Chars SemModel SemSpec.
Import ListNotations.
Open Scope nat_scope.

(** Induction over pieces. *)
Section Ind.
Variable P : nd -> Prop.
Hypothesis HParts : forall l, Forall P l -> P (Parts l).
Hypothesis HYield : forall p l, Forall P l -> P (Yield p l).
Hypothesis HCall : forall f args, Forall P f -> Forall (fun a => P (aExpr a)) args -> P (Call f args).
Hypothesis HFun : forall ps r b, Forall (fun q => forall p t e, pDefault q = Some (p, t, e) -> P e) ps ->
  (forall x, b = Some x -> P x) -> P (Fun ps r b).
Hypothesis HClass : forall k p x l,
  Forall (fun m => match m with MMethod f => P f | MProp _ vs => Forall P vs | MConst _ _ e => P e end) l -> P (Class k p x l).
Hypothesis HForeach : forall h v1 v2 b, P h -> P v1 -> (forall x, v2 = Some x -> P x) -> P b -> P (Foreach h v1 v2 b).
Hypothesis HUse : forall l, P (Use l).
Fixpoint nd_all (n : nd) : P n.
Proof.
  assert (L : forall l, Forall P l -> Forall P l) by auto.
  destruct n as [l|p l|f args|ps r b|k p x l|h v1 v2 b|l].
  - apply HParts. induction l; constructor; auto.
  - apply HYield. induction l; constructor; auto.
  - apply HCall; [clear args; induction f|clear f; induction args]; constructor; auto.
  - apply HFun.
    + induction ps as [|[q1 q2 q3 d] ps IH]; constructor; [|exact IH].
      cbn [pDefault]. intros p t e E. destruct d as [[[p' t'] e']|]; [|discriminate].
      assert (Q := nd_all e'). injection E as <- <- <-. exact Q.
    + intros x E. destruct b as [b|]; [|discriminate]. assert (Q := nd_all b). injection E as <-. exact Q.
  - apply HClass. induction l as [|m l IH]; constructor; [|exact IH].
    destruct m as [g|h vs|cp cn e]; [apply nd_all| |apply nd_all]. clear - nd_all. induction vs; constructor; auto.
  - apply HForeach; [apply nd_all|apply nd_all| |apply nd_all].
    intros x E. destruct v2 as [v|]; [|discriminate]. assert (Q := nd_all v). injection E as <-. exact Q.
  - apply HUse.
Qed.
End Ind.

Section Walk.
Variable cc : CharClass.
Notation visit := (visit cc true false).

(** Everything but the problems is as before. *)
Definition same (s s' : st) : Prop :=
  ctxs s' = ctxs s /\ decls s' = decls s /\ prevParam s' = prevParam s /\ prevArg s' = prevArg s /\ openNs s' = openNs s.
Definition adds (s s' : st) (l : list (why * nat)) : Prop := probs s' = probs s ++ l.
Lemma st_eq s s' : same s s' -> probs s' = probs s -> s' = s.
Proof. destruct s, s'; unfold same; cbn; intros (-> & -> & -> & -> & ->) ->; reflexivity. Qed.

(** The outcome of the walk as a state. *)
Definition plus (s : st) (l : list (why * nat)) : st :=
  {| ctxs := ctxs s; decls := decls s; prevParam := prevParam s; prevArg := prevArg s; openNs := openNs s; probs := probs s ++ l |}.
Lemma plus_nil s : plus s [] = s.
Proof. destruct s; unfold plus; cbn. now rewrite app_nil_r. Qed.
Lemma plus_plus s a b : plus (plus s a) b = plus s (a ++ b).
Proof. unfold plus; cbn. now rewrite app_assoc. Qed.
Lemma report_plus w p s : report w p s = plus s [(w, p)].
Proof. reflexivity. Qed.

Lemma fold_plus A (f : st -> A -> st) (R : A -> list (why * nat)) s l (K : st -> Prop) :
  (forall l s, K s -> K (plus s l)) -> K s ->
  (forall a s, In a l -> K s -> f s a = plus s (R a)) -> fold_left f l s = plus s (flat_map R l).
Proof.
  intros KP. revert s. induction l as [|a l IH]; intros s Ks H; cbn.
  - now rewrite plus_nil.
  - rewrite H by (auto; now left). rewrite IH, plus_plus; [reflexivity|apply KP; exact Ks|].
    intros b s' I. apply H. now right.
Qed.

(** What each piece calls for itself. *)
Definition hintRep (h : hint) : list (why * nat) :=
  match h with
  | HName p f r => if isGenericClassTypehint cc f then if isReservedClassName cc (List.last r f) then [(ReservedHint, p)] else [] else []
  | _ => []
  end.
Lemma visitHint_rep s h : visitHint cc s h = plus s (hintRep h).
Proof. destruct h as [| | |p f r]; cbn; rewrite ?plus_nil; try reflexivity.
  destruct (isGenericClassTypehint cc f); [|now rewrite plus_nil].
  destruct (isReservedClassName cc (List.last r f)); [reflexivity|now rewrite plus_nil]. Qed.
Lemma visitHints_rep l s : visitHints cc l s = plus s (flat_map hintRep l).
Proof. unfold visitHints. apply fold_plus with (K := fun _ => True); auto. intros; apply visitHint_rep. Qed.

Definition useRep (c : ctype) (u : useElem) : list (why * nat) :=
  match uGroup u with
  | Some _ => []
  | None =>
    if negb (isNamespace c) && (match uAlias u with None => true | Some _ => false end)
          && (List.length (uParts u) =? 1) then [(NoEffect, uPos u)]
    else if uTaken u then [(NameTaken, uPos u)]
    else match uAlias u with
         | Some (p, a) => if isReservedClassName cc a then [(ReservedAlias, p)] else []
         | None => []
         end
  end.
Lemma visitUse_rep s u : visitUse cc s u = plus s (useRep (curType s) u).
Proof.
  unfold visitUse, useRep. destruct (uGroup u); [now rewrite plus_nil|].
  destruct (negb (isNamespace (curType s)) && _ && _); [reflexivity|].
  destruct (uTaken u); [reflexivity|]. destruct (uAlias u) as [[p a]|]; [|now rewrite plus_nil].
  destruct (isReservedClassName cc a); [reflexivity|now rewrite plus_nil].
Qed.

Definition defaultRep (q : param nd) : list (why * nat) :=
  match pDefault q with
  | Some (p, text, _) =>
      if pVariadic q then [(VariadicDefault, p)]
      else if hasClassTypehint cc (pHint q) && negb (is cc text "null") then [(ClassDefault, p)] else []
  | None => []
  end.
Definition lastRep (prev : option (nat * bool)) : list (why * nat) :=
  match prev with Some (p, true) => [(VariadicNotLast, p)] | _ => [] end.
Definition argRep (prev : option (nat * bool)) (a : arg nd) : list (why * nat) :=
  match prev with Some (_, true) => if aUnpacked a then [] else [(PositionalAfterUnpacked, aPos a)] | _ => [] end.
Definition constRep (k : kind) (p : nat) (name : qstring) : list (why * nat) :=
  (match k with KTrait => [(TraitConst, p)] | _ => [] end) ++
  (if eqs (map (toLower cc) name) (str "class") then [(ConstClass, p)] else []).

Section Lists.
Variable R : ctype -> nd -> list (why * nat).
Fixpoint paramsRep (prev : option (nat * bool)) (l : list (param nd)) : list (why * nat) :=
  match l with
  | [] => []
  | q :: r => defaultRep q ++ flat_map hintRep (pHint q)
      ++ (match pDefault q with Some (_, _, e) => R TFunctionCtx e | None => [] end)
      ++ lastRep prev ++ paramsRep (Some (pPos q, pVariadic q)) r
  end.
Fixpoint argsRep (c : ctype) (prev : option (nat * bool)) (l : list (arg nd)) : list (why * nat) :=
  match l with
  | [] => []
  | a :: r => R c (aExpr a) ++ argRep prev a ++ argsRep c (Some (aPos a, aUnpacked a)) r
  end.
Definition memberRep (k : kind) (m : member nd) : list (why * nat) :=
  match m with
  | MMethod f => R TClassCtx f
  | MProp h vs => flat_map hintRep h ++ flat_map (R TClassCtx) vs
  | MConst p name e => constRep k p name ++ R TClassCtx e
  end.
End Lists.

(** All a piece calls for, in the order of the walk. *)
Fixpoint rep (c : ctype) (n : nd) {struct n} : list (why * nat) :=
  match n with
  | Parts l => flat_map (rep c) l
  | Yield p l => flat_map (rep c) l ++ (if isOther c then [] else [(YieldOutside, p)])
  | Call f args => flat_map (rep c) f ++ argsRep rep c None args
  | Fun ps ret body => paramsRep rep None ps ++ flat_map hintRep ret ++ (match body with Some b => rep TOther b | None => [] end)
  | Class k p name l => flat_map (memberRep rep k) l ++ (if isReservedClassName cc name then [(ReservedName, p)] else [])
  | Foreach h v1 v2 b =>
      rep c h ++ rep c v1 ++ (match v2 with Some v => rep c v | None => [] end) ++ rep c b
      ++ (match v2 with Some v => rep c v | None => [] end) ++ rep c v1
  | Use l => flat_map (useRep c) l
  end.

Lemma cur_plus s l : curType (plus s l) = curType s. Proof. reflexivity. Qed.

Lemma visit_rep : forall n s, visit n s = plus s (rep (curType s) n).
Proof.
  induction n as [l IH|p l IH|f args IHf IHa|ps r b IHp IHb|k p x l IH|h v1 v2 b IHh IH1 IH2 IHb|l] using nd_all; intros s.
  - cbn. apply fold_plus with (K := fun s' => curType s' = curType s); auto.
    intros a s' I E. rewrite <- E. exact (proj1 (Forall_forall _ _) IH a I s').
  - cbn [SemModel.visit rep]. rewrite fold_plus with (R := rep (curType s)) (K := fun s' => curType s' = curType s); auto.
    + rewrite cur_plus. destruct (isOther (curType s)); [now rewrite app_nil_r|]. now rewrite report_plus, plus_plus.
    + intros a s' I E. rewrite <- E. exact (proj1 (Forall_forall _ _) IH a I s').
  - cbn [SemModel.visit rep]. rewrite fold_plus with (R := rep (curType s)) (K := fun s' => curType s' = curType s); auto.
    2: { intros a s' I E. rewrite <- E. exact (proj1 (Forall_forall _ _) IHf a I s'). }
    rewrite <- plus_plus. set (s1 := plus s _). assert (E1 : curType s1 = curType s) by reflexivity.
    rewrite <- E1. clearbody s1. clear s E1 IHf f. unfold visitArgs.
    assert (L : forall l s prev, Forall (fun a => forall s, visit (aExpr a) s = plus s (rep (curType s) (aExpr a))) l ->
      exists prev', fold_left (visitArg visit) l (setPrevArg prev s)
      = setPrevArg prev' (plus s (argsRep rep (curType s) prev l))).
    { induction l as [|a l IHl]; intros s prev F.
      - exists prev. cbn. now rewrite plus_nil.
      - inversion F as [|? ? Fa Fl]; subst. cbn [fold_left argsRep].
        assert (E : visitArg visit (setPrevArg prev s) a =
          setPrevArg (Some (aPos a, aUnpacked a)) (plus s (rep (curType s) (aExpr a) ++ argRep prev a))).
        { unfold visitArg. rewrite Fa. unfold argRep. change (curType (setPrevArg prev s)) with (curType s).
          change (prevArg (plus (setPrevArg prev s) (rep (curType s) (aExpr a)))) with prev.
          destruct prev as [[pp [|]]|]; [|now rewrite app_nil_r..].
          destruct (aUnpacked a); [now rewrite app_nil_r|]. rewrite <- plus_plus. reflexivity. }
        rewrite E. destruct (IHl (plus s (rep (curType s) (aExpr a) ++ argRep prev a)) (Some (aPos a, aUnpacked a)) Fl) as [prev' E'].
        exists prev'. rewrite E'. rewrite plus_plus, cur_plus, <- app_assoc. reflexivity. }
    destruct (L args s1 None IHa) as [prev' E]. rewrite E. now destruct s1.
  - cbn [SemModel.visit rep].
    set (s1 := openCtx TFunctionCtx (openDecl DFunction s)).
    assert (L : forall l s prev, curType s = TFunctionCtx ->
      Forall (fun q => forall p t e, pDefault q = Some (p, t, e) -> forall s, visit e s = plus s (rep (curType s) e)) l ->
      exists prev', fold_left (visitParam cc visit) l (setPrevParam prev s)
      = setPrevParam prev' (plus s (paramsRep rep prev l))).
    { clear. induction l as [|q l IHl]; intros s prev Ct F.
      - exists prev. cbn. now rewrite plus_nil.
      - inversion F as [|? ? Fa Fl]; subst. cbn [fold_left paramsRep].
        assert (E : visitParam cc visit (setPrevParam prev s) q =
          setPrevParam (Some (pPos q, pVariadic q)) (plus s (defaultRep q ++ flat_map hintRep (pHint q)
             ++ (match pDefault q with Some (_, _, e) => rep TFunctionCtx e | None => [] end) ++ lastRep prev))).
        { unfold visitParam. 
          assert (E0 : (match pDefault q with
            | Some (p, text, _) =>
               if pVariadic q then report VariadicDefault p (setPrevParam prev s)
               else if hasClassTypehint cc (pHint q) && negb (is cc text "null") then report ClassDefault p (setPrevParam prev s)
               else setPrevParam prev s
            | None => setPrevParam prev s end) = setPrevParam prev (plus s (defaultRep q))).
          { unfold defaultRep. destruct (pDefault q) as [[[p t] e]|]; [|now rewrite plus_nil].
            destruct (pVariadic q); [reflexivity|]. destruct (hasClassTypehint cc (pHint q) && negb (is cc t "null")); [reflexivity|now rewrite plus_nil]. }
          rewrite E0. rewrite visitHints_rep.
          set (s2 := plus (openDecl DVariable (setPrevParam prev (plus s (defaultRep q)))) (flat_map hintRep (pHint q))).
          assert (E1 : (match pDefault q with Some (_, _, e) => visit e s2 | None => s2 end)
            = plus s2 (match pDefault q with Some (_, _, e) => rep TFunctionCtx e | None => [] end)).
          { destruct (pDefault q) as [[[p t] e]|]; [|now rewrite plus_nil]. rewrite (Fa p t e eq_refl).
            change (curType s2) with (curType s). now rewrite Ct. }
          rewrite E1. set (d := match pDefault q with Some (_, _, e) => rep TFunctionCtx e | None => [] end).
          change (prevParam (plus s2 d)) with prev. unfold s2.
          rewrite <- !plus_plus. unfold lastRep. destruct prev as [[pp [|]]|]; rewrite ?plus_nil; now destruct s. }
        rewrite E.
        match goal with |- context [plus s ?x] => set (big := x) end.
        destruct (IHl (plus s big) (Some (pPos q, pVariadic q)) Ct Fl) as [prev' E'].
        exists prev'. rewrite E'. rewrite plus_plus. unfold big. now rewrite <- !app_assoc. }
    unfold visitParams. destruct (L ps s1 None eq_refl IHp) as [prev' E]. rewrite E. clear E L.
    rewrite visitHints_rep.
    set (s2 := closeCtx _).
    assert (E2 : s2 = openDecl DFunction (plus s (paramsRep rep None ps ++ flat_map hintRep r))).
    { unfold s2, s1. rewrite <- plus_plus. now destruct s. }
    rewrite E2. clear s2 E2. rewrite app_assoc. set (l0 := paramsRep rep None ps ++ flat_map hintRep r). clearbody l0.
    destruct b as [b|].
    + rewrite (IHb b eq_refl). change (curType (openCtx TOther (openDecl DFunction (plus s l0)))) with TOther.
      rewrite <- plus_plus. now destruct s.
    + rewrite app_nil_r. now destruct s.
  - cbn [SemModel.visit rep].
    rewrite fold_plus with (R := memberRep rep k)
      (K := fun s' => curType s' = TClassCtx /\ hd DFunction (decls s') = DClass k).
    + assert (E : closeDecl (closeCtx (plus (openCtx TClassCtx (openDecl (DClass k) s)) (flat_map (memberRep rep k) l)))
        = plus s (flat_map (memberRep rep k) l)) by now destruct s.
      rewrite E. destruct (isReservedClassName cc x); [now rewrite report_plus, plus_plus|now rewrite app_nil_r].
    + auto.
    + now split.
    + intros m s' I [C D]. assert (Q := proj1 (Forall_forall _ _) IH m I). clear IH I.
      destruct m as [g|h vs|cp cn e]; cbn [visitMember memberRep].
      * rewrite Q, C. reflexivity.
      * rewrite visitHints_rep.
        rewrite fold_plus with (R := rep TClassCtx) (K := fun s' => curType s' = TClassCtx); auto.
        { now rewrite plus_plus. }
        intros e s2 I C2. rewrite (proj1 (Forall_forall _ _) Q e I).
        change (curType (openDecl DVariable s2)) with (curType s2). rewrite C2. now destruct s2.
      * rewrite Q. unfold constRep.
        assert (E : (match decls s' with DClass KTrait :: _ => report TraitConst cp s' | _ => s' end)
          = plus s' (match k with KTrait => [(TraitConst, cp)] | _ => [] end)).
        { destruct (decls s') as [|[k'| | | ] ds]; cbn in D; try discriminate. injection D as ->.
          destruct k; rewrite ?plus_nil; reflexivity. }
        rewrite E. set (a := match k with KTrait => _ | _ => _ end). 
        destruct (eqs (map (toLower cc) cn) (str "class")).
        { rewrite report_plus, plus_plus. change (curType (openDecl DVariable (plus s' (a ++ [(ConstClass, cp)])))) with (curType s').
          rewrite C. rewrite <- (plus_plus s' (a ++ _)). clear. now destruct s'. }
        { change (curType (openDecl DVariable (plus s' a))) with (curType s'). rewrite C, app_nil_r. rewrite <- plus_plus. clear. now destruct s'. }
  - cbn [SemModel.visit rep].
    assert (E : forall s', (match v2 with Some v => visit v s' | None => s' end) = plus s' (match v2 with Some v => rep (curType s') v | None => [] end)).
    { intros s'. destruct v2 as [v|]; [now rewrite (IH2 v eq_refl)|now rewrite plus_nil]. }
    rewrite (IHh s). rewrite (IH1 (plus s _)). rewrite (E (plus (plus s _) _)). rewrite (IHb (plus (plus (plus s _) _) _)).
    rewrite E. rewrite IH1. rewrite !plus_plus, !cur_plus. rewrite <- ?app_assoc. reflexivity.
  - cbn. apply fold_plus with (K := fun s' => curType s' = curType s); auto.
    intros a s' I E. rewrite visitUse_rep, E. reflexivity.
Qed.
End Walk.
