From Coq Require Import List Bool Arith Lia.
From Verif Require Import VisModel VisSpec.
Import ListNotations.
Open Scope nat_scope.

Section W.
Variable w : world.
Variable x : nat.
Lemma lookup_nearest l c v : lookup w x l = Some (c, v) <-> Nearest w x l c v.
Proof.
  split.
  - induction l as [|a l IH]; cbn; [discriminate|]. destruct (props w a x) eqn:P; intros H.
    + injection H as <- <-. constructor. exact P.
    + constructor 2; [exact P|apply IH; exact H].
  - induction 1 as [c l v P|c l d v P N IH]; cbn; rewrite P; [reflexivity|exact IH].
Qed.
Lemma nearest_fun l c v c' v' : Nearest w x l c v -> Nearest w x l c' v' -> c = c' /\ v = v'.
Proof. intros A B. apply lookup_nearest in A. apply lookup_nearest in B. rewrite A in B. injection B as -> ->. split; reflexivity. Qed.
Lemma nearest_in l c v : Nearest w x l c v -> In c l /\ props w c x = Some v.
Proof. induction 1 as [c l v P|c l d v P N [I J]]; split; cbn; auto. Qed.
Lemma nearest_some l c v : In c l -> props w c x = Some v -> exists c' v', Nearest w x l c' v'.
Proof.
  induction l as [|a l IH]; intros [] P.
  - subst. exists c, v. constructor. exact P.
  - destruct (props w a x) eqn:Q; [exists a, v0; constructor; exact Q|]. destruct (IH H P) as (c' & v' & N). exists c', v'. constructor 2; assumption.
Qed.
Lemma chain_here c : In c (chain w c).
Proof. rewrite chain_ok. left. reflexivity. Qed.
Lemma chain_trans a b c : In b (chain w a) -> In c (chain w b) -> In c (chain w a).
Proof.
  remember (List.length (chain w a)) as n eqn:En. revert a En. induction n as [n IH] using lt_wf_ind. intros a En I J.
  pose proof (chain_ok w a) as O. rewrite O in I. destruct I as [->|I]; [exact J|].
  rewrite O. right. destruct (parent w a) as [p|]; [|destruct I]. eapply IH; [|reflexivity|exact I|exact J].
  rewrite En, O. cbn. lia.
Qed.
(** What is above the nearest one is above it. *)
Lemma nearest_above a c v b : Nearest w x (chain w a) c v -> In b (chain w a) -> props w b x <> None -> In b (chain w c).
Proof.
  remember (List.length (chain w a)) as n eqn:En. revert a En. induction n as [n IH] using lt_wf_ind. intros a En N I P.
  pose proof (chain_ok w a) as O. rewrite O in I, N. inversion N as [c1 l1 v1 P1 E1|c1 l1 d1 v1 P1 N1 E1]; subst.
  - rewrite O. exact I.
  - destruct I as [->|I]; [contradiction|]. destruct (parent w a) as [p|]; [|destruct I]. eapply IH; [|reflexivity|exact N1|exact I|exact P].
    rewrite O. cbn. lia.
Qed.
Lemma nearest_head c l v : props w c x = Some v -> Nearest w x (c :: l) c v.
Proof. constructor. assumption. Qed.
Lemma nearest_self c v : props w c x = Some v -> Nearest w x (chain w c) c v.
Proof. intros P. rewrite chain_ok. apply nearest_head. exact P. Qed.
Lemma nearest_inherited l c v : Nearest w x l c v -> v <> Private -> Inherited w x l c v.
Proof. induction 1 as [c l v P|c l d v P N IH]; intros V; [constructor; assumption|constructor 2; [left; exact P|apply IH; exact V]]. Qed.
Lemma inherited_in l c v : Inherited w x l c v -> In c l /\ props w c x = Some v /\ v <> Private.
Proof. induction 1 as [c l v P|c l d v P N (I & J)]; (split; [cbn; auto|]); auto. Qed.
Lemma inherited_nearest a c v : lawful w -> Inherited w x (chain w a) c v -> Nearest w x (chain w a) c v \/ Nearest w x (chain w a) a Private \/ False.
Proof.
  intros LW H. destruct (inherited_in _ _ _ H) as (I & P & V). destruct (nearest_some _ _ _ I P) as (c' & v' & N).
  destruct v'; destruct (nearest_in _ _ _ N) as [I' P'].
  1, 2: left.
  3: { pose proof (nearest_above _ _ _ _ N I) as K. rewrite P in K. specialize (K ltac:(discriminate)).
       destruct (Nat.eq_dec c c') as [->|E]; [rewrite P in P'; injection P' as ->; contradiction|].
       destruct (LW c' c x P' K E) as [Z|Z]; rewrite P in Z; [discriminate|injection Z as ->; contradiction]. }
  all: clear I I' P P' LW; induction H as [b l u P Q|b l e u P Q IH].
  all: try (constructor; exact P).
  all: inversion N as [c1 l1 v1 P1 E1|c1 l1 d1 v1 P1 N1 E1]; subst; [rewrite P1 in P; destruct P as [P|P]; discriminate P|constructor 2; [exact P1|apply IH; assumption]].
Qed.
End W.

Lemma is_spec o c : is o c = true <-> o = Some c.
Proof. destruct o as [m|]; cbn; [rewrite Nat.eqb_eq; split; [intros ->; reflexivity|intros H; injection H as ->; reflexivity]|split; discriminate]. Qed.
Lemma imports_spec w o c : imports w o c = true <-> exists m, o = Some m /\ In c (chain w m).
Proof.
  destruct o as [m|]; cbn.
  - rewrite existsb_exists. split.
    + intros (y & I & E). apply Nat.eqb_eq in E. subst y. exists m. split; [reflexivity|exact I].
    + intros (m' & E & I). injection E as <-. exists c. split; [exact I|apply Nat.eqb_refl].
  - split; [discriminate|intros (m & E & _); discriminate].
Qed.

Section Sites.
Variable w : world.
Variable s : site.
Variable x : nat.
Lemma around_class d o : found w s o d -> around s = class s.
Proof.
  intros [_ C]. unfold around. destruct (class s) as [m|].
  - destruct C as [sc ->]; [discriminate|reflexivity].
  - destruct (scopes s) as [|a [|b r]]; reflexivity.
Qed.
(** What is known in a method. *)
Lemma known_own d o m c v : found w s o d -> class s = Some m -> Nearest w x (chain w m) c v -> (v <> Private \/ c = m) -> known w s x = true.
Proof.
  intros F M N V. pose proof (around_class d o F) as A. destruct F as [_ C]. destruct (C ltac:(rewrite M; discriminate)) as [sc E].
  unfold known. destruct (existsb _ _); [reflexivity|]. rewrite E, M. apply lookup_nearest in N. rewrite N.
  destruct v; [reflexivity|reflexivity|]. destruct V as [V|V]; [contradiction|]. apply is_spec. rewrite A, M, V. reflexivity.
Qed.
Lemma unknown d o : found w s o d -> ((forall sc, In sc (scopes s) -> sc x = None) /\ globals s x = None) ->
  (forall m c v, class s = Some m -> Nearest w x (chain w m) c v -> v = Private /\ c <> m) -> known w s x = false.
Proof.
  intros F [V G] N. pose proof (around_class d o F) as A. unfold known.
  replace (existsb (fun sc => isSet (sc x)) (scopes s)) with false.
  2: { symmetry. apply not_true_is_false. intros H. apply existsb_exists in H. destruct H as (sc & I & H). rewrite (V sc I) in H. discriminate. }
  destruct (scopes s) as [|sc r] eqn:E; [rewrite G; reflexivity|]. destruct (class s) as [m|] eqn:M; [|rewrite G; reflexivity].
  destruct (lookup w x (chain w m)) as [[c v]|] eqn:L; [|rewrite G; reflexivity].
  apply lookup_nearest in L. destruct (N m c v eq_refl L) as [-> NE]. apply not_true_is_false. rewrite is_spec, A. intros H. injection H as <-. contradiction.
Qed.

Lemma report_only o d v : lawful w -> found w s o d -> fair w s d x -> check w s (Var o) x = Some v -> forbids w (class s) d x v.
Proof.
  intros LW F [PI PB] H. pose proof (around_class d o F) as A. unfold check in H. cbn [classContext] in H.
  rewrite (f_global _ _ _ _ F) in H. destruct (known w s x) eqn:K; [discriminate|]. destruct (imports w (around s) d) eqn:M; [discriminate|].
  rewrite A in *.
  assert (NP : ~ own w (class s) d x).
  { intros (m & Em & I & P). rewrite (known_own d o m m Private F Em (nearest_self w x m Private P) (or_intror eq_refl)) in K. discriminate. }
  destruct (lookup w x (chain w d)) as [[c u]|] eqn:L; [|discriminate]. apply lookup_nearest in L.
  destruct u; [discriminate| |].
  - destruct (is (class s) c) eqn:C; [discriminate|]. injection H as <-. split; [exact NP|]. right. split; [reflexivity|]. split.
    + intros P. destruct (nearest_fun w x _ _ _ _ _ L (nearest_self w x d _ P)) as [_ Z]. discriminate.
    + exists c. split; [apply nearest_inherited; [exact L|discriminate]|]. intros (m & Em & Q).
      assert (J : In c (chain w m)) by (destruct Q as [Q|Q]; [exact Q|exact (PB m c Em L Q)]).
      destruct (nearest_in w x _ _ _ L) as [_ P]. destruct (nearest_some w x _ _ _ J P) as (c' & v' & N).
      destruct (nearest_in w x _ _ _ N) as [_ P'].
      destruct v'; [rewrite (known_own d o m c' _ F Em N) in K; [discriminate|left; discriminate]..|].
      pose proof (nearest_above w x _ _ _ _ N J) as U. rewrite P in U. specialize (U ltac:(discriminate)).
      destruct (Nat.eq_dec c c') as [->|E]; [rewrite P in P'; discriminate|].
      destruct (LW c' c x P' U E) as [Z|Z]; rewrite P in Z; discriminate.
  - destruct (is (class s) c) eqn:C; [discriminate|]. injection H as <-. pose proof (PI c L) as E. split; [exact NP|]. left. split; [reflexivity|].
    rewrite <- E. exact (proj2 (nearest_in w x _ _ _ L)).
Qed.

Lemma report_found o d v : lawful w -> found w s o d -> seen w s d x -> forbids w (class s) d x v -> check w s (Var o) x = Some v.
Proof.
  intros LW F [PV PL PO] [NO H]. pose proof (around_class d o F) as A. unfold check. cbn [classContext]. rewrite (f_global _ _ _ _ F), A.
  destruct H as [[-> P]|(-> & NP & c & I & NC)].
  - pose proof (nearest_self w x d _ P) as N.
    assert (K : known w s x = false).
    { apply (unknown d o F PV). intros m c v Em Nm. destruct (PO m c v Em Nm) as [[V Z]|[-> Z]].
      - destruct (nearest_fun w x _ _ _ _ _ N Z) as [_ E]. exfalso. apply V. symmetry. exact E.
      - split; [reflexivity|]. intros ->. destruct Z as [Z|Z]; [contradiction|]. apply NO. exists m. split; [exact Em|]. split; [exact Z|].
        exact (proj2 (nearest_in w x _ _ _ Nm)). }
    assert (NM : forall m, class s = Some m -> ~ In d (chain w m)).
    { intros m Em J. destruct (Nat.eq_dec m d) as [->|E]; [apply NO; exists d; split; [exact Em|split; [apply chain_here|exact P]]|exact (PL m Em J E P)]. }
    rewrite K. destruct (imports w (class s) d) eqn:M; [apply imports_spec in M; destruct M as (m & Em & J); destruct (NM m Em J)|].
    apply lookup_nearest in N. rewrite N. destruct (is (class s) d) eqn:C; [|reflexivity]. apply is_spec in C. destruct (NM d C (chain_here w d)).
  - destruct (inherited_nearest w x d c Protected LW I) as [N|[N|[]]]; [|destruct NP; exact (proj2 (nearest_in w x _ _ _ N))].
    assert (K : known w s x = false).
    { apply (unknown d o F PV). intros m c' v Em Nm. destruct (PO m c' v Em Nm) as [[V Z]|[-> Z]].
      - destruct (nearest_fun w x _ _ _ _ _ N Z) as [<- _]. exfalso. apply NC. exists m. split; [exact Em|]. left. exact (proj1 (nearest_in w x _ _ _ Nm)).
      - split; [reflexivity|]. intros ->. destruct Z as [Z|Z]; [contradiction|]. apply NO. exists m. split; [exact Em|]. split; [exact Z|].
        exact (proj2 (nearest_in w x _ _ _ Nm)). }
    rewrite K. destruct (imports w (class s) d) eqn:M.
    { apply imports_spec in M. destruct M as (m & Em & J). exfalso. apply NC. exists m. split; [exact Em|]. left. eapply chain_trans; [exact J|].
      exact (proj1 (nearest_in w x _ _ _ N)). }
    apply lookup_nearest in N. rewrite N. destruct (is (class s) c) eqn:C; [|reflexivity]. apply is_spec in C. exfalso. apply NC. exists c.
    split; [exact C|]. left. apply chain_here.
Qed.
Lemma report_this : check w s This x = None.
Proof.
  unfold check. cbn [classContext]. destruct (around s) as [m|] eqn:A; [|reflexivity]. destruct (known w s x); [reflexivity|].
  replace (imports w (Some m) m) with true; [reflexivity|]. symmetry. apply imports_spec. exists m. split; [reflexivity|apply chain_here].
Qed.
Lemma this_allowed m v : ~ forbids w (Some m) m x v.
Proof.
  intros [NO [[_ P]|(_ & _ & c & I & NC)]].
  - apply NO. exists m. split; [reflexivity|]. split; [apply chain_here|exact P].
  - apply NC. exists m. split; [reflexivity|]. left. exact (proj1 (inherited_in w x _ _ _ I)).
Qed.
End Sites.
