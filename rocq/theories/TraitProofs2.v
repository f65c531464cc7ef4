(** Collision errors, insteadof and aliases. *)
From Verif Require Import ModProofs TraitModel TraitSpec TraitProofs.

(** The scan reports a collision exactly when the first declaration standing for the method is an
    alias of another trait's method of that name that does not exclude this trait. *)
Lemma scan_collision t m ls : Forall wfLoc ls ->
  (scan t m ls = FoundCollision <->
   exists pre l post, ls = pre ++ l :: post /\ (forall x, In x pre -> ~ hides x m) /\
     l_kind l = MethodAlias /\ l_aliasOf l <> Some (m_id m) /\ l_name l = m_name m /\
     ~ In (t_local t) (l_over l) /\ m_isMethod m = true).
Proof.
  intros F. induction F as [|l r W F IH]; cbn [scan].
  - split; [discriminate|]. intros (pre & l & post & E & _). destruct pre; discriminate.
  - assert (OV : isOverriding l (t_local t) = true <-> In (t_local t) (l_over l)).
    { unfold isOverriding. rewrite existsb_exists. split.
      - intros (x & Hx & E). apply Nat.eqb_eq in E. subst. exact Hx.
      - intros H. exists (t_local t). split; [exact H|apply Nat.eqb_refl]. }
    assert (SKIP : ~ hides l m ->
      ((exists pre l0 post, l :: r = pre ++ l0 :: post /\ (forall x, In x pre -> ~ hides x m) /\
         l_kind l0 = MethodAlias /\ l_aliasOf l0 <> Some (m_id m) /\ l_name l0 = m_name m /\
         ~ In (t_local t) (l_over l0) /\ m_isMethod m = true) <->
       (exists pre l0 post, r = pre ++ l0 :: post /\ (forall x, In x pre -> ~ hides x m) /\
         l_kind l0 = MethodAlias /\ l_aliasOf l0 <> Some (m_id m) /\ l_name l0 = m_name m /\
         ~ In (t_local t) (l_over l0) /\ m_isMethod m = true))).
    { intros NH. split.
      - intros (pre & l0 & post & E & P & K & A & N & O & M). destruct pre as [|p pre].
        + cbn in E. injection E as -> ->. exfalso. apply NH. right. exact N.
        + cbn in E. injection E as -> ->. exists pre, l0, post. repeat split; auto.
          intros x Hx. apply P. right. exact Hx.
      - intros (pre & l0 & post & E & P & K). exists (l :: pre), l0, post. cbn. rewrite E. repeat split; try tauto.
        intros x [<-|Hx]; auto. }
    assert (HERE : hides l m -> forall Q : Prop, (Q <->
       (l_kind l = MethodAlias /\ l_aliasOf l <> Some (m_id m) /\ l_name l = m_name m /\
        ~ In (t_local t) (l_over l) /\ m_isMethod m = true)) ->
       (Q <-> (exists pre l0 post, l :: r = pre ++ l0 :: post /\ (forall x, In x pre -> ~ hides x m) /\
         l_kind l0 = MethodAlias /\ l_aliasOf l0 <> Some (m_id m) /\ l_name l0 = m_name m /\
         ~ In (t_local t) (l_over l0) /\ m_isMethod m = true))).
    { intros H Q HQ. rewrite HQ. split.
      - intros K. exists [], l, r. split; [reflexivity|]. split; [intros x []|exact K].
      - intros (pre & l0 & post & E & P & K). destruct pre as [|p pre].
        + cbn in E. injection E as -> ->. exact K.
        + cbn in E. injection E as -> ->. exfalso. apply (P p (or_introl eq_refl)). exact H. }
    assert (AI := aliases_iff l m). assert (NI := Nat.eqb_eq (l_name l) (m_name m)).
    destruct (l_kind l) eqn:K.
    + assert (A : aliases l m = false) by (unfold aliases; rewrite (W K); reflexivity).
      destruct (Nat.eqb (l_name l) (m_name m)).
      * apply HERE; [right; apply NI; reflexivity|]. split; [discriminate|]. intros (X & _). discriminate.
      * rewrite SKIP; [exact IH|]. intros [X|X]; [apply AI in X; congruence|apply NI in X; congruence].
    + destruct (aliases l m).
      * apply HERE; [left; apply AI; reflexivity|]. split; [discriminate|].
        intros (_ & X & _). exfalso. apply X. apply AI. reflexivity.
      * destruct (Nat.eqb (l_name l) (m_name m)).
        -- apply HERE; [right; apply NI; reflexivity|].
           destruct (isOverriding l (t_local t)).
           ++ split; [discriminate|]. intros (_ & _ & _ & X & _). exfalso. apply X. apply OV. reflexivity.
           ++ destruct (m_isMethod m).
              ** split; [|reflexivity]. intros _. split; [reflexivity|]. split; [intros X; apply AI in X; discriminate|].
                 split; [apply NI; reflexivity|]. split; [intros X; apply OV in X; discriminate|reflexivity].
              ** split; [discriminate|]. intros (_ & _ & _ & _ & X). discriminate.
        -- rewrite SKIP; [exact IH|]. intros [X|X]; [apply AI in X; congruence|apply NI in X; congruence].
    + destruct (aliases l m).
      * apply HERE; [left; apply AI; reflexivity|]. split; [discriminate|]. intros (X & _). discriminate.
      * destruct (Nat.eqb (l_name l) (m_name m)).
        -- apply HERE; [right; apply NI; reflexivity|]. split; [discriminate|]. intros (X & _). discriminate.
        -- rewrite SKIP; [exact IH|]. intros [X|X]; [apply AI in X; congruence|apply NI in X; congruence].
Qed.

Lemma importMembers_errors t sn ms e : In e (snd (importMembers t sn ms)) <->
  exists m, In m ms /\ e = Collision (m_id m) /\ scan t m sn = FoundCollision.
Proof.
  induction ms as [|m r IH]; cbn [importMembers].
  - cbn. split; [intros []|intros (m & [] & _)].
  - destruct (importMembers t sn r) as [ls es]. cbn [snd] in IH.
    assert (S : (exists m0, In m0 (m :: r) /\ e = Collision (m_id m0) /\ scan t m0 sn = FoundCollision) <->
                (e = Collision (m_id m) /\ scan t m sn = FoundCollision) \/ In e es).
    { rewrite IH. split.
      - intros (m0 & [<-|H] & E & C); [left; auto|right; eauto].
      - intros [[E C]|(m0 & H & E & C)]; [exists m; cbn; auto|exists m0; cbn; auto]. }
    rewrite S. destruct (scan t m sn); cbn.
    + split; [auto|intros [[_ H]|H]; [discriminate|exact H]].
    + split; [auto|intros [[_ H]|H]; [discriminate|exact H]].
    + split; [intros [H|H]; [left; auto|right; exact H]|intros [[H _]|H]; auto].
Qed.

(** The state of the class when the [i]-th trait is imported, and its errors. *)
Lemma importTraits_errors ts : forall ls e, In e (snd (importTraits ls ts)) <->
  exists ts1 t ts2 m, ts = map Some ts1 ++ Some t :: ts2 /\ In m (t_members t) /\ e = Collision (m_id m) /\
    scan t m (result ls (map Some ts1)) = FoundCollision.
Proof.
  induction ts as [|[t|] r IH]; intros ls e.
  - cbn. split; [intros []|]. intros (ts1 & t & ts2 & m & E & _). destruct ts1; discriminate.
  - rewrite importTraits_step. cbn [snd]. rewrite in_app_iff, IH, importMembers_errors. split.
    + intros [(m & H1 & H2 & H3)|(ts1 & t0 & ts2 & m & E & H1 & H2 & H3)].
      * exists [], t, r, m. auto.
      * exists (t :: ts1), t0, ts2, m. cbn [map app]. rewrite E, result_step. auto.
    + intros (ts1 & t0 & ts2 & m & E & H1 & H2 & H3). destruct ts1 as [|t1 ts1].
      * cbn in E. injection E as -> ->. left. exists m. auto.
      * cbn [map app] in E. injection E as -> ->. right. exists ts1, t0, ts2, m. cbn [map] in H3. rewrite result_step in H3. auto.
  - cbn. split; [intros []|]. intros (ts1 & t & ts2 & m & E & _). destruct ts1; discriminate.
Qed.

Lemma NoDup_map_inj {A} (f : A -> nat) l x y : NoDup (map f l) -> In x l -> In y l -> f x = f y -> x = y.
Proof.
  induction l as [|a l IH]; cbn; intros ND Hx Hy E; [destruct Hx|].
  inversion ND as [|b c N1 N2]; subst. destruct Hx as [<-|Hx]; destruct Hy as [<-|Hy]; auto.
  - exfalso. apply N1. rewrite E. apply in_map. exact Hy.
  - exfalso. apply N1. rewrite <- E. apply in_map. exact Hx.
Qed.

(** "use A, B { A::n insteadof B; }" *)
Definition insteadof (A : TraitD) (n : nat) (B : TraitD) : AliasStmt :=
  {| a_trait := Some A; a_method := n; a_alias := None; a_mods := None; a_conflicts := [t_qid B] |}.

Lemma insteadof_ok own A B n mA mB :
  Forall ownMember own -> ~ In n (map l_name own) ->
  distinctNames A -> NoDup (map m_id (t_members A ++ t_members B)) ->
  t_local B = t_qid B ->
  In mA (t_members A) -> m_name mA = n -> m_isMethod mA = true ->
  In mB (t_members B) -> m_name mB = n -> m_isMethod mB = true ->
  exists ls es, classBody own [Uses [Some A; Some B] [insteadof A n B]] = Some (ls, es) /\
    (exists l, In l ls /\ l_name l = n /\ l_aliasOf l = Some (m_id mA) /\ l_access l = m_access mA) /\
    (forall l, In l ls -> l_name l = n -> l_aliasOf l = Some (m_id mA)) /\
    ~ In (Collision (m_id mB)) es.
Proof.
  intros OW NN DA ID LB HA NA MA HB NB MB.
  assert (FD : find (fun m => Nat.eqb (m_name m) n) (t_members A) = Some mA).
  { unfold distinctNames in DA. clear ID OW NN LB HB NB MB. induction (t_members A) as [|x r IH]; [destruct HA|].
    cbn. inversion DA as [|y z N1 N2]; subst. destruct (Nat.eqb (m_name x) (m_name mA)) eqn:E.
    - f_equal. destruct HA as [HA|HA]; [exact HA|]. exfalso. apply N1. apply Nat.eqb_eq in E. rewrite E. apply in_map. exact HA.
    - destruct HA as [->|HA]; [rewrite Nat.eqb_refl in E; discriminate|]. apply IH; auto. }
  set (al := {| l_name := n; l_kind := MethodAlias; l_isMethod := true; l_aliasOf := Some (m_id mA);
                l_over := [t_qid B]; l_access := m_access mA; l_static := m_static mA |}).
  assert (W : Forall wfLoc (own ++ [al])).
  { apply Forall_app. split.
    - apply Forall_forall. intros l Hl. rewrite Forall_forall in OW. intros _. apply OW, Hl.
    - constructor; [|constructor]. intros K. discriminate. }
  assert (NE : m_id mA <> m_id mB).
  { intros E. rewrite map_app in ID. revert ID. apply in_split in HB. destruct HB as (b1 & b2 & EB).
    apply in_split in HA. destruct HA as (a1 & a2 & EA). rewrite EA, EB, !map_app. cbn. rewrite E. intros ND.
    rewrite <- app_assoc in ND. apply NoDup_remove_2 in ND. apply ND. rewrite !in_app_iff. cbn. rewrite ?in_app_iff. cbn. tauto. }
  exists (result (own ++ [al]) [Some A; Some B]), (snd (importTraits (own ++ [al]) [Some A; Some B])).
  split; [|split; [|split]].
  - cbn [classBody aliasDecls aliasDecl insteadof a_trait a_method a_alias a_mods a_conflicts].
    rewrite FD, MA. unfold result.
    change (has 0 Public) with false. change (has 0 Protected) with false. change (has 0 Private) with false.
    change (has 0 Abstract) with false. change (has 0 Final) with false. change (has 0 Static) with false.
    cbn [app]. fold al. destruct (importTraits (own ++ [al]) [Some A; Some B]) as [x y]. cbn [fst snd app].
    rewrite app_nil_r. reflexivity.
  - exists al. split; [|auto]. destruct (result_extends [Some A; Some B] (own ++ [al])) as (new & ->).
    apply in_or_app. left. apply in_or_app. right. left. reflexivity.
  - intros l Hl E.
    assert (IN : In l (own ++ [al])).
    { eapply (result_existing_name [Some A; Some B] (own ++ [al]) W al); [apply in_or_app; right; left; reflexivity|exact Hl|].
      rewrite E. reflexivity. }
    apply in_app_or in IN. destruct IN as [IN|[<-|[]]]; [|reflexivity].
    exfalso. apply NN. rewrite <- E. apply in_map. exact IN.
  - intros H. apply importTraits_errors in H. destruct H as (ts1 & t & ts2 & m & E & Hm & Em & C).
    injection Em as Em.
    destruct (result_extends (map Some ts1) (own ++ [al])) as (new & ER).
    assert (INm : In m (t_members A ++ t_members B)).
    { destruct ts1 as [|t1 [|t2 ts1]]; cbn in E.
      - injection E as <- _. apply in_or_app. left. exact Hm.
      - injection E as _ <- _. apply in_or_app. right. exact Hm.
      - destruct ts1; discriminate. }
    assert (EQ : m = mB).
    { apply (NoDup_map_inj m_id (t_members A ++ t_members B)); auto. apply in_or_app. right. exact HB. }
    subst m.
    assert (TB : t_local t = t_qid B).
    { destruct ts1 as [|t1 [|t2 ts1]]; cbn in E.
      - injection E as <- _. exfalso. apply in_split in Hm. destruct Hm as (a1 & a2 & EA).
        apply in_split in HB. destruct HB as (b1 & b2 & EB). rewrite EA, EB in ID. rewrite !map_app in ID. cbn in ID.
        rewrite <- app_assoc in ID. apply NoDup_remove_2 in ID. apply ID. rewrite !in_app_iff. cbn. rewrite ?in_app_iff. cbn. tauto.
      - injection E as _ <- _. exact LB.
      - destruct ts1; discriminate. }
    rewrite ER in C. clear - C OW NN NB NE TB.
    rewrite <- app_assoc in C.
    induction own as [|l own IH].
    + cbn [app scan al l_kind] in C. unfold aliases in C. cbn [al l_aliasOf] in C.
      apply Nat.eqb_neq in NE. rewrite NE in C. cbn [al l_name] in C. rewrite NB, Nat.eqb_refl in C.
      unfold isOverriding in C. cbn [al l_over existsb] in C. rewrite TB, Nat.eqb_refl in C. discriminate.
    + cbn [app scan] in C. inversion OW as [|x y O1 O2]; subst x y. destruct O1 as [O1 _]. rewrite O1 in C.
      destruct (Nat.eqb (l_name l) (m_name mB)) eqn:E; [apply Nat.eqb_eq in E; exfalso; apply NN; left; congruence|].
      apply IH; auto. intros H. apply NN. right. exact H.
Qed.

(** Access of "m as modifiers alias". *)
Lemma alias_access s t m l es : a_trait s = Some t ->
  aliasDecl s = Some ([l], es) -> find (fun m => Nat.eqb (m_name m) (a_method s)) (t_members t) = Some m ->
  (l_name l = match a_alias s with Some n => n | None => a_method s end) /\ l_aliasOf l = Some (m_id m) /\
  l_static l = m_static m /\
  (match a_mods s with
   | None => l_access l = m_access m
   | Some ms => (~ In Public ms -> ~ In Protected ms -> ~ In Private ms -> l_access l = m_access m) /\
                (In Public ms -> l_access l = APublic) /\
                (In Protected ms -> ~ In Public ms -> l_access l = AProtected) /\
                (In Private ms -> ~ In Public ms -> ~ In Protected ms -> l_access l = APrivate)
   end).
Proof.
  intros ET E F. unfold aliasDecl in E. rewrite ET, F in E. destruct (m_isMethod m); [|discriminate].
  injection E as <- <-. cbn. repeat split. destruct (a_mods s) as [ms|].
  - assert (HI : forall x, In x ms -> has (modifiers ms) x = true) by (intros x Hx; apply ModProofs.has_iff, Hx).
    assert (HN : forall x, ~ In x ms -> has (modifiers ms) x = false) by (intros x Hx; apply ModProofs.has_not, Hx).
    repeat split; intros; repeat match goal with
      | H : In ?x ms |- _ => apply HI in H; rewrite ?H
      | H : ~ In ?x ms |- _ => apply HN in H; rewrite ?H end; try reflexivity.
  - reflexivity.
Qed.
