From Coq Require Import List Bool Arith NArith String Lia Sorted.
From Verif Require Import Chars LexModel ComplModel CallModel CallSpec.
Import ListNotations.
Open Scope list_scope.

Section P.
Variable cc : CharClass.

Section Ind.
Variable P : cls -> Prop.
Hypothesis H : forall n ns own base ifs, (forall b, base = Some b -> P b) -> (forall i, In i ifs -> P i) -> P (Cls n ns own base ifs).
Fixpoint cls_rect' (c : cls) : P c :=
  match c with
  | Cls n ns own base ifs =>
      H n ns own base ifs
        (match base as o return (forall b, o = Some b -> P b) with
         | Some x => fun b e => match e in (_ = y) return (match y with Some z => P z | None => True end) with eq_refl => cls_rect' x end
         | None => fun b e => match e in (_ = y) return (match y with Some z => P z | None => True end) with eq_refl => I end
         end)
        ((fix go (l : list cls) : forall i, In i l -> P i :=
            match l as l return (forall i, In i l -> P i) with
            | [] => fun i h => match h with end
            | x :: r => fun i h => match h with or_introl e => match e in (_ = y) return P y with eq_refl => cls_rect' x end
                                               | or_intror h => go r i h end
            end) ifs)
  end.
End Ind.

Lemma named_ident m i : eqs (ident cc m) i = true <-> named cc m i.
Proof. unfold named, ident. destruct (mk m); apply eqs_eq. Qed.

Lemma filter_none i l : (forall m, In m l -> ~ named cc m i) -> filter (fun m => eqs (ident cc m) i) l = [].
Proof.
  induction l as [|m l IH]; intros Hn; [reflexivity|]. cbn [filter].
  destruct (eqs (ident cc m) i) eqn:E.
  - exfalso. apply (Hn m (or_introl eq_refl)). now apply named_ident.
  - apply IH. intros m' Hm. apply Hn. now right.
Qed.

Lemma search_none i c : (forall x m, Above x c -> In m (members x) -> ~ named cc m i) -> search cc i c [] = [].
Proof.
  induction c as [n ns own base ifs IHb IHi] using cls_rect'. intros Hn. cbn [search].
  assert (E : filter (fun m => eqs (ident cc m) i) own = []).
  { apply filter_none. intros m Hm. apply (Hn (Cls n ns own base ifs) m (A_self _)). exact Hm. }
  rewrite E. cbn [app].
  assert (F : fold_right (fun c a => search cc i c a) [] ifs = []).
  { clear E IHb. assert (G : forall l, (forall x, In x l -> In x ifs) -> fold_right (fun c a => search cc i c a) [] l = []).
    { induction l as [|x l IHl]; intros Hl; [reflexivity|]. cbn [fold_right].
      rewrite IHl by (intros y Hy; apply Hl; now right).
      apply IHi; [apply Hl; now left|].
      intros y m Hy Hm. apply (Hn y m); [|exact Hm]. eapply A_if; [apply Hl; now left|exact Hy]. }
    apply G. auto. }
  rewrite F. destruct base as [b|]; [|reflexivity].
  apply (IHb b eq_refl). intros x m Hx Hm. apply (Hn x m); [|exact Hm]. now apply A_base.
Qed.

(** The hereditary part of [modern]. *)
Record mod1 (c : cls) : Prop := {
  m1_method : forall x m, Above x c -> In m (members x) -> named cc m (str "__construct") -> mk m = Method;
  m1_once : forall x m m', Above x c -> In m (members x) -> In m' (members x) ->
    named cc m (str "__construct") -> named cc m' (str "__construct") -> m = m';
  m1_interface : forall n ns own base ifs i x m, Line (Cls n ns own base ifs) c -> In i ifs -> Above x i ->
    In m (members x) -> ~ named cc m (str "__construct");
  m1_old : forall x m, Line x c -> In m (members x) -> ~ isOld cc (nameOf x) m }.
Lemma mod1_base n ns own b ifs : mod1 (Cls n ns own (Some b) ifs) -> mod1 b.
Proof.
  intros [A B C D]. constructor; intros.
  - eapply A; eauto using A_base.
  - eapply B; eauto using A_base.
  - eapply C; eauto using L_base.
  - eapply D; eauto using L_base.
Qed.

Lemma construct_named m : isConstruct cc m -> named cc m (str "__construct").
Proof. intros [A B]. unfold named. now rewrite A. Qed.
Lemma named_construct m : mk m = Method -> named cc m (str "__construct") -> isConstruct cc m.
Proof. intros A B. split; [exact A|]. unfold named in B. now rewrite A in B. Qed.

Lemma search_ctor c : mod1 c ->
  (exists m r, search cc (str "__construct") c [] = m :: r /\ mk m = Method /\ Runs cc c m /\ (forall m', Runs cc c m' -> m' = m)) \/
  (search cc (str "__construct") c [] = [] /\ forall m, ~ Runs cc c m).
Proof.
  induction c as [n ns own base ifs IHb _] using cls_rect'. intros M. cbn [search]. cbn [app].
  destruct (filter (fun m => eqs (ident cc m) (str "__construct")) own) as [|m r] eqn:E.
  - assert (No : forall m, In m own -> ~ isConstruct cc m).
    { intros m Hm Hc. assert (X : In m (filter (fun m => eqs (ident cc m) (str "__construct")) own)).
      { apply filter_In. split; [exact Hm|]. apply named_ident. now apply construct_named. }
      rewrite E in X. exact X. }
    assert (NoO : forall m, In m own -> ~ isOld cc n m).
    { intros m Hm. exact (m1_old _ M (Cls n ns own base ifs) m (L_self _) Hm). }
    assert (F : fold_right (fun c a => search cc (str "__construct") c a) [] ifs = []).
    { assert (G : forall l, (forall x, In x l -> In x ifs) -> fold_right (fun c a => search cc (str "__construct") c a) [] l = []).
      { induction l as [|x l IHl]; intros Hl; [reflexivity|]. cbn [fold_right].
        rewrite IHl by (intros y Hy; apply Hl; now right).
        apply search_none. intros y m Hy Hm. eapply (m1_interface _ M n ns own base ifs x y m (L_self _)); auto.
        apply Hl; now left. }
      apply G; auto. }
    rewrite F. destruct base as [b|].
    + destruct (IHb b eq_refl (mod1_base _ _ _ _ _ M)) as [(m & r & A & B & C & D)|(A & B)].
      * left. exists m, r. split; [exact A|]. split; [exact B|]. split; [now apply R_base|].
        intros m' H'. inversion H' as [? ? ? ? ? ? X Y|? ? ? ? ? X Y Z|? ? ? ? ? ? X Y Z]; subst.
        -- exfalso. exact (No _ X Y).
        -- exfalso. exact (NoO _ Y Z).
        -- now apply D.
      * right. split; [exact A|]. intros m' H'. inversion H' as [? ? ? ? ? ? X Y|? ? ? ? ? X Y Z|? ? ? ? ? ? X Y Z]; subst.
        -- exact (No _ X Y).
        -- exact (NoO _ Y Z).
        -- exact (B _ Z).
    + right. split; [reflexivity|]. intros m' H'. inversion H' as [? ? ? ? ? ? X Y|? ? ? ? ? X Y Z|]; subst.
      * exact (No _ X Y).
      * exact (NoO _ Y Z).
  - left. exists m, r. split; [reflexivity|].
    assert (X : In m own /\ named cc m (str "__construct")).
    { assert (X : In m (m :: r)) by now left. rewrite <- E in X. apply filter_In in X. split; [apply X|]. now apply named_ident. }
    destruct X as [Hm Hn].
    assert (K : mk m = Method) by exact (m1_method _ M (Cls n ns own base ifs) m (A_self _) Hm Hn).
    assert (Hc : isConstruct cc m) by now apply named_construct.
    split; [exact K|]. split; [now apply R_construct|].
    intros m' H'. inversion H' as [? ? ? ? ? ? X Y|? ? ? ? ? X Y Z|? ? ? ? ? ? X Y Z]; subst.
    + exact (m1_once _ M (Cls n ns own base ifs) m' m (A_self _) X Hm (construct_named _ Y) Hn).
    + exfalso. exact (X _ Hm Hc).
    + exfalso. exact (X _ Hm Hc).
Qed.

Lemma no_functions l : (forall id, ~ In (true, id) l) -> map snd (filter (fst (A:=bool) (B:=nat)) l) = [].
Proof.
  induction l as [|[[|] id] l IH]; intros Hn; [reflexivity| |].
  - exfalso. apply (Hn id). now left.
  - cbn. apply IH. intros id' Hi. apply (Hn id'). now right.
Qed.

Lemma ctor_modern c a : modern cc c a ->
  (forall m, Runs cc c m -> ctor cc c a = Some (mid m)) /\
  (forall t, ctor cc c a = Some t -> exists m, Runs cc c m /\ mid m = t).
Proof.
  intros M. assert (M1 : mod1 c) by (destruct M; constructor; assumption).
  destruct M as [_ _ _ _ Mn Mf].
  assert (Nf : forall i, i = map (toLower cc) (nameOf c) \/ i = str "__construct" -> map snd (filter fst (a i)) = []).
  { intros i Hi. apply no_functions. intros id. destruct (Mf id) as [A B]. destruct Hi as [->| ->]; assumption. }
  destruct (search_ctor c M1) as [(m & r & A & B & C & D)|(A & B)].
  - assert (E : ctor cc c a = Some (mid m)).
    { unfold ctor, functions. rewrite A. cbn [filter]. unfold isMethod at 1. rewrite B. reflexivity. }
    rewrite E. split.
    + intros m' H'. now rewrite (D m' H').
    + intros t Ht. injection Ht as <-. exists m. now split.
  - assert (E : ctor cc c a = None).
    { assert (N : search cc (map (toLower cc) (nameOf c)) c [] = []) by (apply search_none; exact Mn).
      unfold ctor. unfold functions at 1. rewrite A. rewrite (Nf _ (or_intror eq_refl)).
      unfold functions. change (className c) with (nameOf c). rewrite N. now rewrite (Nf _ (or_introl eq_refl)). }
    rewrite E. split; [|discriminate]. intros m' H'. exfalso. exact (B _ H').
Qed.

(** ** The levels *)
Lemma tip_calls l t : (forall c a d r, decls l = d :: r -> dwhat d = Class c a -> modern cc c a) ->
  (tipOf cc l = Some t <-> Calls cc l t).
Proof.
  intros M. destruct l as [cl ds]. unfold tipOf. cbn [call decls] in *.
  destruct cl; [|split; [discriminate|intros H; inversion H]].
  destruct ds as [|[w sh] r]; [split; [discriminate|intros H; inversion H]|]. cbn [shown dwhat].
  destruct sh; [|split; [discriminate|intros H; inversion H]].
  destruct w as [id|c a|id cb].
  - split; [intros H; injection H as <-; constructor|intros H; inversion H; reflexivity].
  - destruct (ctor_modern c a (M c a _ r eq_refl eq_refl)) as [A B]. split.
    + intros H. destruct (B t H) as (m & R & <-). now constructor.
    + intros H. inversion H; subst. now apply A.
  - destruct cb; [|split; [discriminate|intros H; inversion H]].
    split; [intros H; injection H as <-; constructor|intros H; inversion H; reflexivity].
Qed.

Lemma tips_In abort ls : (forall j, abort j = false) -> forall k i t,
  In (i, t) (tips cc abort k ls) <-> exists j l, i = k + j /\ nth_error ls j = Some l /\ tipOf cc l = Some t.
Proof.
  intros Ab. induction ls as [|l ls IH]; intros k i t; cbn [tips]; rewrite Ab.
  - split; [intros []|]. intros (j & l & _ & N & _). destruct j; discriminate.
  - assert (S1 : (exists j l0, i = S k + j /\ nth_error ls j = Some l0 /\ tipOf cc l0 = Some t) ->
      exists j l0, i = k + j /\ nth_error (l :: ls) j = Some l0 /\ tipOf cc l0 = Some t).
    { intros (j & l0 & E & N & T). exists (S j), l0. split; [lia|]. now split. }
    assert (S2 : (exists j l0, i = k + j /\ nth_error (l :: ls) j = Some l0 /\ tipOf cc l0 = Some t) ->
      (i = k /\ tipOf cc l = Some t) \/ exists j l0, i = S k + j /\ nth_error ls j = Some l0 /\ tipOf cc l0 = Some t).
    { intros ([|j] & l0 & E & N & T); [left; cbn in N; injection N as <-; split; [lia|exact T]|].
      right. exists j, l0. split; [lia|]. now split. }
    destruct (tipOf cc l) as [t'|] eqn:El.
    + cbn [In]. rewrite IH. split.
      * intros [X|X]; [|now apply S1]. injection X as <- <-. exists 0, l. split; [lia|]. now split.
      * intros X. destruct (S2 X) as [[-> Y]|Y]; [left; now injection Y as <-|now right].
    + rewrite IH. split; [apply S1|]. intros X. destruct (S2 X) as [[_ Y]|Y]; [discriminate|exact Y].
Qed.

Lemma tips_sorted abort ls : forall k, Forall (fun x => k <= fst x) (tips cc abort k ls) /\
  StronglySorted (fun x y => fst x < fst y) (tips cc abort k ls).
Proof.
  induction ls as [|l ls IH]; intros k; cbn [tips]; destruct (abort k); try (split; constructor).
  destruct (IH (S k)) as [A B].
  assert (A' : Forall (fun x => k <= fst x) (tips cc abort (S k) ls)) by (eapply Forall_impl; [|exact A]; cbn; intros; lia).
  destruct (tipOf cc l) as [t|]; [|now split].
  split; [constructor; [cbn; lia|exact A']|]. constructor; [exact B|]. eapply Forall_impl; [|exact A]. cbn. intros; lia.
Qed.

Lemma tips_prefix abort ls : forall k, exists r, tips cc (fun _ => false) k ls = tips cc abort k ls ++ r.
Proof.
  induction ls as [|l ls IH]; intros k; cbn [tips].
  - exists []. now destruct (abort k).
  - destruct (abort k); [eexists; reflexivity|]. destruct (IH (S k)) as [r E]. rewrite E.
    destruct (tipOf cc l) as [t|]; exists r; reflexivity.
Qed.

Lemma levels_ok ls i t : (forall l c a d r, In l ls -> decls l = d :: r -> dwhat d = Class c a -> modern cc c a) ->
  (In (i, t) (tips cc (fun _ => false) 0 ls) <-> exists l, nth_error ls i = Some l /\ Calls cc l t).
Proof.
  intros M. rewrite (tips_In _ _ (fun _ => eq_refl)). split.
  - intros (j & l & -> & N & T). exists l. split; [exact N|].
    apply tip_calls; [|exact T]. intros. eapply M; eauto. eapply nth_error_In; eauto.
  - intros (l & N & C). exists i, l. split; [reflexivity|]. split; [exact N|].
    apply tip_calls; [|exact C]. intros. eapply M; eauto. eapply nth_error_In; eauto.
Qed.
End P.

(** ** Where the tip is not what the call runs *)
Section R.
Variable cc : CharClass.

Lemma head_fun (l : list (bool * nat)) id r : l = (true, id) :: r -> map snd (filter (fst (A:=bool) (B:=nat)) l) = id :: map snd (filter fst r).
Proof. intros ->. reflexivity. Qed.

(** A class without constructor, and a function of the same name. *)
Lemma function_refuted c a id r :
  (forall x m, Above x c -> In m (members x) -> ~ named cc m (str "__construct") /\ ~ named cc m (map (toLower cc) (nameOf c))) ->
  (forall x m, Line x c -> In m (members x) -> ~ isOld cc (nameOf x) m) ->
  a (str "__construct") = [] -> a (map (toLower cc) (nameOf c)) = (true, id) :: r ->
  ctor cc c a = Some id /\ forall m, ~ Runs cc c m.
Proof.
  intros H Ho A1 A2. split.
  - unfold ctor, functions. change (className c) with (nameOf c).
    rewrite (search_none cc (str "__construct") c) by (intros x m X Y; now apply (H x m)).
    rewrite A1. cbn [filter map].
    rewrite (search_none cc (map (toLower cc) (nameOf c)) c) by (intros x m X Y; now apply (H x m)).
    rewrite A2. reflexivity.
  - intros m R. assert (K : forall c m, Runs cc c m -> exists x, Line x c /\ In m (members x) /\ (isConstruct cc m \/ isOld cc (nameOf x) m)).
    { clear. intros c m R. induction R as [n ns own base ifs m A B|n own base ifs m A B C|n ns own b ifs m A B _ (x & X & Y & Z)].
      - exists (Cls n ns own base ifs). split; [constructor|]. split; [exact A|now left].
      - exists (Cls n false own base ifs). split; [constructor|]. split; [exact B|now right].
      - exists x. split; [now apply L_base|]. now split. }
    assert (LA : forall x c, Line x c -> Above x c) by (intros x y L; induction L; [constructor|now apply A_base]).
    destruct (K c m R) as (x & L & I & [Z|Z]).
    + apply (proj1 (H x m (LA _ _ L) I)). now apply construct_named.
    + exact (Ho x m L I Z).
Qed.

(** The constructor of the class extended has the name of that class. *)
Lemma inherited_refuted n ns own m b a :
  (forall x, In x own -> ~ named cc x (str "__construct") /\ ~ named cc x (map (toLower cc) n)) ->
  mk m = Method -> map (toLower cc) (mname m) = map (toLower cc) b ->
  map (toLower cc) b <> str "__construct" -> map (toLower cc) b <> map (toLower cc) n ->
  a (str "__construct") = [] -> a (map (toLower cc) n) = [] ->
  let c := Cls n ns own (Some (Cls b false [m] None [])) [] in
  Runs cc c m /\ ctor cc c a = None.
Proof.
  intros H K E N1 N2 A1 A2 c.
  assert (Hm : forall i, map (toLower cc) b <> i -> ~ named cc m i) by (intros i Hi X; unfold named in X; rewrite K, E in X; auto).
  split.
  - apply R_base.
    + intros x Hx Hc. apply (proj1 (H x Hx)). now apply construct_named.
    + intros _ x Hx [O1 O2]. apply (proj2 (H x Hx)). unfold named. now rewrite O1.
    + apply R_old; [|now left|now split]. intros x [<-|[]] Hc. apply (Hm _ N1). now apply construct_named.
  - assert (G : forall i, (forall x, In x own -> ~ named cc x i) -> map (toLower cc) b <> i -> search cc i c [] = []).
    { intros i Ho Hb. apply search_none. intros x y X Y. inversion X as [|? ? ? ? ? ? Z|? ? ? ? ? ? ? Z1 Z2]; subst.
      - now apply Ho.
      - inversion Z as [|? ? ? ? ? ? Z'|? ? ? ? ? ? ? Z1 Z2]; subst; [|destruct Z1]. destruct Y as [<-|[]]. now apply Hm.
      - destruct Z1. }
    unfold ctor, functions. change (className c) with n. rewrite (G (str "__construct")) by (auto; intros x Hx; apply (H x Hx)).
    rewrite A1. cbn [filter map]. rewrite (G (map (toLower cc) n)) by (auto; intros x Hx; apply (H x Hx)). now rewrite A2.
Qed.

(** The constructor has the name of its class, which extends a class with __construct. *)
Lemma own_refuted n m b nsb k a : mk m = Method -> map (toLower cc) (mname m) = map (toLower cc) n ->
  map (toLower cc) n <> str "__construct" -> mk k = Method -> map (toLower cc) (mname k) = str "__construct" -> mid m <> mid k ->
  let c := Cls n false [m] (Some (Cls b nsb [k] None [])) [] in
  Runs cc c m /\ ctor cc c a = Some (mid k) /\ (forall r, Runs cc c r -> mid r <> mid k).
Proof.
  intros K E N K' E' D c.
  assert (Hm : ~ isConstruct cc m) by (intros [_ X]; rewrite E in X; auto).
  split; [|split].
  - apply R_old; [|now left|now split]. intros x [<-|[]]. exact Hm.
  - unfold ctor, functions, c. cbn [search app filter map fold_right].
    assert (E1 : eqs (ident cc m) (str "__construct") = false).
    { destruct (eqs (ident cc m) (str "__construct")) eqn:X; [|reflexivity]. apply eqs_eq in X. unfold ident in X. rewrite K, E in X. now destruct N. }
    assert (E2 : eqs (ident cc k) (str "__construct") = true) by (apply eqs_eq; unfold ident; now rewrite K').
    rewrite E1. cbn [filter]. rewrite E2. cbn [filter]. unfold isMethod. now rewrite K'.
  - intros r R. inversion R as [? ? ? ? ? ? X Y|? ? ? ? ? X Y Z|? ? ? ? ? ? X Y Z]; subst.
    + destruct X as [<-|[]]. now destruct Hm.
    + destruct Y as [<-|[]]. exact D.
    + exfalso. apply (Y eq_refl m (or_introl eq_refl)). now split.
Qed.

(** In a namespace a method with the name of its class is no constructor. *)
Lemma namespace_refuted n m a : mk m = Method -> map (toLower cc) (mname m) = map (toLower cc) n ->
  map (toLower cc) n <> str "__construct" -> a (str "__construct") = [] ->
  let c := Cls n true [m] None [] in ctor cc c a = Some (mid m) /\ forall r, ~ Runs cc c r.
Proof.
  intros K E N A c.
  assert (Hm : ~ isConstruct cc m) by (intros [_ X]; rewrite E in X; auto).
  split.
  - unfold ctor, functions, c. cbn [search app filter map fold_right className].
    assert (E1 : eqs (ident cc m) (str "__construct") = false).
    { destruct (eqs (ident cc m) (str "__construct")) eqn:X; [|reflexivity]. apply eqs_eq in X. unfold ident in X. rewrite K, E in X. now destruct N. }
    assert (E2 : eqs (ident cc m) (map (toLower cc) n) = true) by (apply eqs_eq; unfold ident; now rewrite K).
    rewrite E1, E2, A. cbn [filter map]. unfold isMethod. now rewrite K.
  - intros r R. inversion R as [? ? ? ? ? ? X Y|? ? ? ? ? X Y Z|]; subst. destruct X as [<-|[]]. now apply Hm.
Qed.
End R.
