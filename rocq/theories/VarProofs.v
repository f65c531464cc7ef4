(** Proofs for C66: which names are declared (proof file). *)
From Coq Require Import List Bool Arith Lia.
From Verif Require Import PhpTypes MergeModel VarModel VarSpec.
Import ListNotations.
Open Scope nat_scope.

Section Ind.
Variable P : nd -> Prop.
Hypothesis HVal : P Val.
Hypothesis HOp : forall l, Forall P l -> P (Op l).
Hypothesis HVar : forall b ss l, Forall P l -> P (Var b ss l).
Hypothesis HAssign : forall l r, P l -> P r -> P (Assign l r).
Hypothesis HCall : forall c l, Forall P l -> P (Call c l).
Hypothesis HElem : forall n, P n -> P (Elem n).
Hypothesis HForeach : forall e v1 v2 b, P e -> P v1 -> (forall v, v2 = Some v -> P v) -> P b -> P (Foreach e v1 v2 b).
Hypothesis HStatic : forall p x v, P v -> P (StaticVar p x v).
Hypothesis HGlobal : forall p x, P (GlobalVar p x).
Hypothesis HCatch : forall t p x b, P b -> P (Catch t p x b).
Hypothesis HFun : forall ps us b, P b -> P (Fun ps us b).
Fixpoint nd_ind' (n : nd) : P n :=
  let go := fix go (l : list nd) : Forall P l := match l with [] => Forall_nil _ | k :: r => Forall_cons k (nd_ind' k) (go r) end in
  match n with
  | Val => HVal
  | Op l => HOp l (go l)
  | Var b ss l => HVar b ss l (go l)
  | Assign l r => HAssign l r (nd_ind' l) (nd_ind' r)
  | Call c l => HCall c l (go l)
  | Elem k => HElem k (nd_ind' k)
  | Foreach e v1 v2 b =>
      HForeach e v1 v2 b (nd_ind' e) (nd_ind' v1)
        (match v2 return forall v, v2 = Some v -> P v with
         | Some w => fun v E => eq_ind w P (nd_ind' w) v (f_equal (fun o => match o with Some a => a | None => w end) E)
         | None => fun v E => False_ind _ (eq_ind None (fun o => match o with None => True | Some _ => False end) I _ E)
         end) (nd_ind' b)
  | StaticVar p x v => HStatic p x v (nd_ind' v)
  | GlobalVar p x => HGlobal p x
  | Catch t p x b => HCatch t p x b (nd_ind' b)
  | Fun ps us b => HFun ps us b (nd_ind' b)
  end.
End Ind.

Section Walk.
Variable T : st -> nd -> ty.
Variable F : st -> nd -> ty.
Notation visit := (visit T F).

(** ** What the walk is looking for *)
Lemma fnd_setHeap h s : fnd (setHeap h s) = fnd s. Proof. reflexivity. Qed.
Lemma fnd_open x p t s : fnd (openVariable x p t s) = fnd s. Proof. reflexivity. Qed.
Lemma fnd_declareVariable t x p s : fnd (declareVariable t x p s) = fnd s.
Proof.
  unfold declareVariable.
  destruct (if Nat.eqb x this then _ else None) as [[|aa ab n up|]|]; try (destruct (lastOf _); reflexivity).
  destruct (aa && _); [destruct ((n <? 4) && _)|]; reflexivity.
Qed.
Lemma fnd_declareMember t x p s : fnd (declareMember t x p s) = fnd s.
Proof. unfold declareMember. destruct (outer s) as [|c r]; [reflexivity|]. destruct (sk c); try reflexivity. destruct (existsb _ _); reflexivity. Qed.
Lemma fnd_assigned t s : fnd (assigned t s) = fnd s.
Proof.
  unfold assigned. destruct (ident (fnd s)) as [x|]; [|reflexivity]. destruct (node (fnd s)) as [p|]; [|reflexivity].
  destruct (parent (fnd s)) as [q|]; [|apply fnd_declareVariable].
  destruct (Nat.eqb q this); [|reflexivity]. destruct (thisClass s) as [c|]; [|reflexivity].
  destruct (lastOf _) as [e|]; [|apply fnd_declareMember]. destruct (typeAt _ _) as [k| | | | |]; try reflexivity. destruct k; reflexivity.
Qed.
Lemma fnd_declareFound t s : fnd (declareFound t s) = fnd s.
Proof.
  unfold declareFound. destruct (node (fnd s)) as [p|]; [|reflexivity]. destruct (ident (fnd s)) as [x|]; [|reflexivity].
  destruct (isArr (fnd s)); [reflexivity|]. destruct (parent (fnd s)) as [q|].
  - destruct (Nat.eqb q this); [|reflexivity]. destruct (thisClass s); [|reflexivity]. destruct (lookup x (outer s)); [apply fnd_declareMember|reflexivity].
  - destruct (lookup x _) as [|e r].
    + destruct (filter isVar _); [apply fnd_declareVariable|reflexivity].
    + reflexivity.
Qed.
Lemma fnd_pushed f s : fnd (pushed f s) = fnd s. Proof. reflexivity. Qed.
Lemma fnd_leave t s : fnd (leave t s) = fnd s. Proof. unfold leave. destruct (outer s); reflexivity. Qed.
Lemma fnd_args l : forall i s,
  fnd (snd (fold_left (fun is k => (S (fst is), pushed (fun s => afterArg (fst is) (visit k s)) (snd is))) l (i, s))) = fnd s.
Proof. induction l as [|k l IH]; intros i s; cbn [fold_left]; [reflexivity|]. cbn [fst snd]. now rewrite IH. Qed.

(** Once it is found, it stays. *)
Lemma fnd_kept n : forall s, find (fnd s) = false -> fnd (visit n s) = fnd s.
Proof.
  assert (HL : forall l, Forall (fun n => forall s, find (fnd s) = false -> fnd (visit n s) = fnd s) l ->
    forall s, find (fnd s) = false -> fnd (fold_left (fun s k => visit k s) l s) = fnd s).
  { induction 1 as [|k l Hk _ IH]; intros s Hs; cbn [fold_left]; [reflexivity|]. rewrite IH; rewrite Hk; auto. }
  induction n as [|l IH|b ss l IH|l r IHl IHr|c l IH|n IH|e v1 v2 b IHe IH1 IH2 IHb|p x v IH|p x|t p x b IH|ps us b IH] using nd_ind'; intros s Hs; cbn [VarModel.visit].
  - reflexivity.
  - now apply HL.
  - assert (E : fnd (foundVariable b ss s) = fnd s) by (unfold foundVariable; now rewrite Hs). rewrite HL; rewrite ?E; auto.
  - reflexivity.
  - cbn. rewrite fnd_args. reflexivity.
  - reflexivity.
  - cbn zeta. rewrite fnd_pushed. destruct v2 as [v|].
    + rewrite fnd_pushed. cbn [setLast fnd]. rewrite IHb; rewrite (IH2 v eq_refl); rewrite ?IH1; rewrite ?IHe; auto.
    + cbn [setLast fnd]. rewrite IHb; rewrite ?IH1; rewrite ?IHe; auto.
  - cbn. now rewrite IH.
  - destruct (filter isVar _); reflexivity.
  - cbn zeta. rewrite fnd_open. destruct t; cbn [setLast fnd]; now rewrite IH.
  - rewrite fnd_leave. now rewrite IH.
Qed.
(** A variable is found at once. *)
Lemma fnd_var b ss l s : fnd (visit (Var b ss l) s) = fnd (foundVariable b ss s).
Proof.
  cbn [VarModel.visit]. assert (Hf : find (fnd (foundVariable b ss s)) = false).
  { unfold foundVariable. destruct (find (fnd s)) eqn:E; [reflexivity|exact E]. }
  revert Hf. generalize (foundVariable b ss s). intros s1 H1. revert s1 H1.
  induction l as [|k l IH]; intros s1 H1; cbn [fold_left]; [reflexivity|]. rewrite IH; rewrite fnd_kept; auto.
Qed.
(** Nothing is found in elements of a list: each looks for itself. *)
Lemma fnd_elems l : all isElem l -> forall s, fnd (visit (Op l) s) = fnd s.
Proof.
  cbn [VarModel.visit]. induction l as [|k l IH]; intros HA s; cbn [fold_left]; [reflexivity|]. destruct HA as [H1 H2].
  rewrite IH by exact H2. destruct k; try contradiction. reflexivity.
Qed.

End Walk.

(** ** Effects on the contexts *)
Definition outerRel (V : nat -> Prop) (o o' : list scope) : Prop :=
  o' = o \/ exists c r add, o = c :: r /\ isClass c = true /\
    o' = {| sk := sk c; own := own c ++ add; imps := imps c |} :: r /\ Forall (fun e => V (en e)) add.
Definition closedRel (I : nd -> Prop) (l l' : list scope) : Prop :=
  exists new, l' = l ++ new /\ Forall (fun c => exists f, I f /\ scopeOf c f) new /\ (forall f, I f -> exists c, In c new /\ scopeOf c f).
Record Res (V : nat -> Prop) (D : nat -> Prop) (I : nd -> Prop) (s s' : st) : Prop := {
  r_cft : cft s' = cft s;
  r_sk : sk (cur s') = sk (cur s);
  r_outer : outerRel V (outer s) (outer s');
  r_cur : forall x, declared (cur s') x <-> declared (cur s) x \/ D x;
  r_glob : isClass (topOf s) = false -> forall x, globals s x -> globals s' x;
  r_closed : closedRel I (closed s) (closed s')
}.
Record Env (V N G : nat -> Prop) (s : st) : Prop := {
  e_outer : forall x, anyDeclared (outer s) x -> V x;
  e_cur : forall x, declared (cur s) x -> N x;
  e_glob : forall x, G x -> globals s x;
  e_sk : isClass (cur s) = false;
  e_top : isClass (topOf s) = false
}.

Lemma outerRel_trans V a b c : outerRel V a b -> outerRel V b c -> outerRel V a c.
Proof.
  intros [->|(x & r & add & -> & H1 & -> & H2)] HB; [exact HB|].
  destruct HB as [->|(x' & r' & add' & E & H1' & -> & H2')].
  - right. exists x, r, add. auto.
  - injection E as <- <-. right. exists x, r, (add ++ add'). split; [reflexivity|]. split; [exact H1|]. cbn. split.
    + now rewrite app_assoc.
    + now apply Forall_app.
Qed.
Lemma outerRel_any V o o' : outerRel V o o' -> (forall x, anyDeclared o x -> V x) -> forall x, anyDeclared o' x -> V x.
Proof.
  intros [->|(c & r & add & -> & _ & -> & HV)] H x HX; [now apply H|]. destruct HX as (c' & [<-|HC] & HD).
  - destruct HD as (e & He & Ex). cbn in He. rewrite <- app_assoc, in_app_iff, in_app_iff in He. destruct He as [He|[He|He]].
    + apply H. exists c. split; [now left|]. exists e. rewrite in_app_iff. auto.
    + rewrite Forall_forall in HV. specialize (HV e He). now rewrite Ex in HV.
    + apply H. exists c. split; [now left|]. exists e. rewrite in_app_iff. auto.
  - apply H. exists c'. split; [now right|exact HD].
Qed.
Lemma closedRel_trans I J a b c : closedRel I a b -> closedRel J b c -> closedRel (fun f => I f \/ J f) a c.
Proof.
  intros (n1 & -> & A1 & B1) (n2 & -> & A2 & B2). exists (n1 ++ n2). split; [now rewrite app_assoc|]. split.
  - apply Forall_app. split; eapply Forall_impl; try eassumption; cbn; intros x (f & H1 & H2); eauto.
  - intros f [H|H]; [destruct (B1 f H) as (x & H1 & H2)|destruct (B2 f H) as (x & H1 & H2)]; exists x; rewrite in_app_iff; auto.
Qed.
Lemma closedRel_refl l : closedRel (fun _ => False) l l.
Proof. exists []. split; [now rewrite app_nil_r|]. split; [constructor|]. intros f []. Qed.
Lemma last_indep {A} (c : A) r d d' : List.last (c :: r) d = List.last (c :: r) d'.
Proof. revert c. induction r as [|y r IH]; intros c; [reflexivity|]. exact (IH y). Qed.
Lemma topOf_class V s s' : outerRel V (outer s) (outer s') -> sk (cur s') = sk (cur s) -> isClass (topOf s') = isClass (topOf s).
Proof.
  unfold topOf, isClass. intros [->|(c & r & add & E & H1 & -> & H2)] HC.
  - destruct (outer s) as [|c r] using rev_ind; cbn; [now rewrite HC|]. now rewrite !last_last.
  - rewrite E. destruct r as [|c' r]; [reflexivity|]. change (List.last (?x :: c' :: r) ?d) with (List.last (c' :: r) d).
    now rewrite (last_indep c' r (cur s') (cur s)).
Qed.
Lemma Res_trans V D1 D2 I1 I2 a b c : Res V D1 I1 a b -> Res V D2 I2 b c -> Res V (fun x => D1 x \/ D2 x) (fun f => I1 f \/ I2 f) a c.
Proof.
  intros [A1 A2 A3 A4 A5 A6] [B1 B2 B3 B4 B5 B6]. split.
  - congruence.
  - congruence.
  - eapply outerRel_trans; eassumption.
  - intros x. rewrite B4, A4. tauto.
  - intros HC x HX. apply B5; [|auto]. now rewrite (topOf_class _ _ _ A3 A2).
  - now apply closedRel_trans with (b := closed b).
Qed.
Lemma Res_iff V D D' I I' a b : (forall x, D x <-> D' x) -> (forall f, I f <-> I' f) -> Res V D I a b -> Res V D' I' a b.
Proof.
  intros HD HI [A1 A2 A3 A4 A5 A6]. split; auto.
  - intros x. now rewrite A4, HD.
  - destruct A6 as (n & E & A & B). exists n. split; [exact E|]. split.
    + eapply Forall_impl; [|exact A]. cbn. intros c (f & H1 & H2). exists f. split; [now apply HI|exact H2].
    + intros f H. apply B. now apply HI.
Qed.
Lemma Res_same V s s' : cft s' = cft s -> cur s' = cur s -> outer s' = outer s -> closed s' = closed s -> Res V (fun _ => False) (fun _ => False) s s'.
Proof.
  intros E1 E2 E3 E4. split; auto.
  - now rewrite E2.
  - left. exact E3.
  - intros x. rewrite E2. tauto.
  - intros _ x. unfold globals, topOf. now rewrite E2, E3.
  - rewrite E4. apply closedRel_refl.
Qed.
Lemma Env_step V N G D I s s' : Env V N G s -> Res V D I s s' -> (forall x, D x -> N x) -> Env V N G s'.
Proof.
  intros [A1 A2 A3 A4 A5] [B1 B2 B3 B4 B5 B6] HN. split.
  - eapply outerRel_any; eassumption.
  - intros x HX. apply B4 in HX as [HX|HX]; auto.
  - intros x HX. apply B5; auto.
  - unfold isClass in *. now rewrite B2.
  - now rewrite (topOf_class _ _ _ B3 B2).
Qed.

(** ** Lookups *)
Lemma named_In x l e : In e (named x l) <-> In e l /\ en e = x.
Proof. unfold named. rewrite filter_In, Nat.eqb_eq. tauto. Qed.
Lemma inScope_In x c e : In e (inScope x c) -> In e (own c ++ imps c) /\ en e = x.
Proof.
  unfold inScope. rewrite in_app_iff. destruct (named x (own c)) as [|d l] eqn:E.
  - rewrite named_In. tauto.
  - rewrite <- E, named_In. tauto.
Qed.
Lemma inScope_nil x c : inScope x c = [] <-> ~ declared c x.
Proof.
  split.
  - intros H (e & He & Ex). apply in_app_iff in He. unfold inScope in H. destruct (named x (own c)) as [|d l] eqn:E; [|discriminate].
    destruct He as [He|He].
    + assert (HI : In e (named x (own c))) by (apply named_In; auto). rewrite E in HI. destruct HI.
    + assert (HI : In e (named x (imps c))) by (apply named_In; auto). rewrite H in HI. destruct HI.
  - intros H. destruct (inScope x c) as [|e l] eqn:E; [reflexivity|]. exfalso. apply H. exists e. apply inScope_In. rewrite E. now left.
Qed.
Lemma lookup_nil x l : lookup x l = [] <-> ~ anyDeclared l x.
Proof.
  induction l as [|c l IH]; cbn [lookup].
  - split; [|reflexivity]. intros _ (c & [] & _).
  - destruct (inScope x c) as [|d r] eqn:E.
    + rewrite IH. apply inScope_nil in E. split.
      * intros H (c' & [<-|HC] & HD); [tauto|]. apply H. exists c'. auto.
      * intros H (c' & HC & HD). apply H. exists c'. split; [now right|exact HD].
    + split; [discriminate|]. intros H. exfalso. apply H. exists c. split; [now left|].
      destruct (inScope_In x c d) as [H1 H2]; [rewrite E; now left|]. exists d. auto.
Qed.
Lemma lastOf_In {A} (l : list A) a : lastOf l = Some a -> In a l.
Proof. induction l as [|b l IH]; cbn [lastOf]; [discriminate|]. destruct l as [|c l]; [intros [= ->]; now left|]. intros H. right. now apply IH. Qed.
Lemma inScopeBefore_In x p c e : In e (inScopeBefore x p c) -> In e (own c ++ imps c) /\ en e = x.
Proof.
  unfold inScopeBefore, before. rewrite in_app_iff. destruct (filter _ (named x (own c))) as [|d l] eqn:E.
  - rewrite filter_In, named_In. tauto.
  - rewrite <- E, filter_In, named_In. tauto.
Qed.

(** ** Adding a declaration *)
Lemma declared_add e c x : declared (addOwn e c) x <-> declared c x \/ x = en e.
Proof.
  unfold declared, addOwn. cbn. split.
  - intros (d & Hd & Ex). rewrite <- app_assoc, in_app_iff in Hd. cbn in Hd. destruct Hd as [Hd|[<-|Hd]].
    + left. exists d. rewrite in_app_iff. auto.
    + right. auto.
    + left. exists d. rewrite in_app_iff. auto.
  - intros [(d & Hd & Ex)|E]; [exists d|exists e]; rewrite <- app_assoc, in_app_iff; cbn; [|auto].
    rewrite in_app_iff in Hd. tauto.
Qed.
Lemma named_add e c x : named x (own (addOwn e c)) = named x (own c) ++ (if Nat.eqb (en e) x then [e] else []).
Proof. unfold named, addOwn. cbn. rewrite filter_app. cbn. destruct (Nat.eqb (en e) x); reflexivity. Qed.
Lemma glob_add e c x : isVar e = true -> (exists d, In d (inScope x c) /\ isVar d = true) -> exists d, In d (inScope x (addOwn e c)) /\ isVar d = true.
Proof.
  intros HV (d & Hd & Hk). unfold inScope in *. rewrite named_add. destruct (Nat.eqb (en e) x) eqn:E.
  - exists e. split; [|exact HV]. destruct (named x (own c)) as [|a l]; cbn; [now left|]. right. apply in_app_iff. right. now left.
  - rewrite app_nil_r. exists d. auto.
Qed.
Lemma Res_addOwn V e s s' : isVar e = true -> cft s' = cft s -> cur s' = addOwn e (cur s) -> outer s' = outer s -> closed s' = closed s ->
  Res V (fun x => x = en e) (fun _ => False) s s'.
Proof.
  intros HV E1 E2 E3 E4. split; auto.
  - now rewrite E2.
  - left. exact E3.
  - intros x. rewrite E2. apply declared_add.
  - intros _ x. unfold globals, topOf. rewrite E3, E2. destruct (outer s) as [|c r] using rev_ind; cbn.
    + now apply glob_add.
    + now rewrite !last_last.
  - rewrite E4. apply closedRel_refl.
Qed.
Lemma Res_open V x p t s : Res V (fun y => y = x) (fun _ => False) s (openVariable x p t s).
Proof. apply (Res_addOwn V (newEntry EVariable x p t s)); reflexivity. Qed.

Lemma Res_declareVariable V t x p s : x <> this -> Res V (fun y => y = x) (fun _ => False) s (declareVariable t x p s).
Proof.
  intros HX. unfold declareVariable. apply Nat.eqb_neq in HX. rewrite HX.
  destruct (lastOf _) as [e|] eqn:E; [|apply Res_open].
  apply lastOf_In in E. apply filter_In in E as [E _]. apply inScopeBefore_In in E as [E1 E2].
  eapply Res_iff with (D := fun y => y = x) (I := fun _ => False); try tauto.
  destruct (Res_same V s (setHeap (update (heap s) (ei e) (assign (typeAt (heap s) (ei e)) t)) s)) as [A1 A2 A3 A4 A5 A6]; try reflexivity.
  split; auto. intros y. cbn. split; [auto|]. intros [H| ->]; [exact H|]. exists e. auto.
Qed.
Lemma Res_declareMember (V : nat -> Prop) t x p s : V x -> isClass (topOf s) = false -> Res V (fun _ => False) (fun _ => False) s (declareMember t x p s).
Proof.
  intros HV HT. unfold declareMember. destruct (outer s) as [|c r] eqn:EO; [now apply Res_same|].
  destruct (sk c) as [|aa ab k up|] eqn:EK; try (now apply Res_same). destruct (existsb _ up); [now apply Res_same|].
  split; cbn; auto.
  - right. exists c, r, [newEntry (EMember false) x p t s]. split; [exact EO|]. split; [unfold isClass; now rewrite EK|]. split; [reflexivity|]. constructor; [exact HV|constructor].
  - tauto.
  - intros _ y. unfold globals, topOf in *. cbn. rewrite EO in *. destruct r as [|c' r].
    + cbn in HT. unfold isClass in HT. rewrite EK in HT. discriminate.
    + auto.
  - apply closedRel_refl.
Qed.
Lemma moveTo_In p e l : forall d, In d (moveTo p e l) -> exists d', In d' l /\ en d = en d' /\ ek d = ek d'.
Proof. unfold moveTo. intros d H. apply in_map_iff in H as (d' & <- & H). exists d'. split; [exact H|]. destruct (moves _ _ _); auto. Qed.
Lemma moveTo_rev p e l : forall d', In d' l -> exists d, In d (moveTo p e l) /\ en d = en d' /\ ek d = ek d'.
Proof.
  intros d' H. exists (if moves p e d' then movedTo p d' else d').
  split; [now apply (in_map (fun e' => if moves p e e' then movedTo p e' else e'))|]. destruct (moves _ _ _); auto.
Qed.
Lemma named_moveTo x p e l : named x (moveTo p e l) = moveTo p e (named x l).
Proof.
  unfold named, moveTo. induction l as [|d l IH]; cbn; [reflexivity|]. destruct (moves p e d) eqn:E1; cbn; destruct (Nat.eqb (en d) x) eqn:E2; cbn; rewrite ?E1, IH; reflexivity.
Qed.
Lemma glob_move x p e c : (exists d, In d (inScope x c) /\ isVar d = true) ->
  exists d, In d (inScope x {| sk := sk c; own := moveTo p e (own c); imps := imps c |}) /\ isVar d = true.
Proof.
  intros (d & Hd & Hk). unfold inScope in *. cbn [own imps]. rewrite named_moveTo. destruct (named x (own c)) as [|a l] eqn:E.
  - exists d. auto.
  - apply (moveTo_rev p e) in Hd as (d' & H1 & H2 & H3). exists d'. split; [exact H1|]. unfold isVar in *. now rewrite H3.
Qed.
Lemma Res_move V p e s : Res V (fun _ => False) (fun _ => False) s (setCur {| sk := sk (cur s); own := moveTo p e (own (cur s)); imps := imps (cur s) |} s).
Proof.
  split; cbn; auto.
  - left. reflexivity.
  - intros x. unfold declared. cbn. split.
    + intros (d & Hd & Ex). left. apply in_app_iff in Hd as [Hd|Hd].
      * apply moveTo_In in Hd as (d' & H1 & H2 & _). exists d'. rewrite in_app_iff. split; [auto|congruence].
      * exists d. rewrite in_app_iff. auto.
    + intros [(d & Hd & Ex)|[]]. apply in_app_iff in Hd as [Hd|Hd].
      * apply (moveTo_rev p e) in Hd as (d' & H1 & H2 & _). exists d'. rewrite in_app_iff. split; [auto|congruence].
      * exists d. rewrite in_app_iff. auto.
  - intros _ x. unfold globals, topOf. cbn. destruct (outer s) as [|c r] using rev_ind; cbn.
    + apply glob_move.
    + now rewrite !last_last.
  - apply closedRel_refl.
Qed.
