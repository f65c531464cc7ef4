(** Each use is of a member with the name that is written there (ChainModel.v). *)
From Coq Require Import List Bool Arith NArith.
From Verif Require Import PhpTypes Chars LookModel ExprModel ExprSpec ExprProofs ChainModel ChainSpec ChainProofs.
Import ListNotations.

Section Named.
Variable cc : CharClass.
Variable w : world.

Lemma search_declared i x : forall acc d, In d (search cc i x acc) -> In d acc \/ (Declares x d /\ ident cc (snd d) = i).
Proof.
  induction x as [c own imps IH] using ctx_ind2. intros acc d. rewrite search_eq. destruct (acc ++ ownOf cc i c own) as [|d1 r] eqn:E.
  - apply app_eq_nil in E. destruct E as [-> _]. intros H. right.
    assert (exists b, In b imps /\ Declares b d /\ ident cc (snd d) = i) as (b & A & B & D); [|split; [apply D_base with b; assumption|exact D]].
    induction imps as [|b r IHr]; cbn in H; [destruct H|]. inversion IH as [|? ? A B]; subst.
    destruct (A _ _ H) as [X|X]; [destruct (IHr B X) as (b' & Y & Z); exists b'; split; [right; exact Y|exact Z]|exists b; split; [left; reflexivity|exact X]].
  - rewrite <- E. intros H. apply in_app_or in H. destruct H as [H|H]; [left; exact H|]. right.
    apply (proj1 (in_own _ _ _ _ _)) in H. destruct d as [c' m]. cbn in H. destruct H as (-> & A & B). split; [apply D_own; exact A|exact B].
Qed.
Lemma find_declared i x d : In d (findDeclarations cc i x) -> Declares x d /\ ident cc (snd d) = i.
Proof. intros H. destruct (search_declared i x [] d H) as [[]|X]. exact X. Qed.

Definition Fine (e0 : ex) (u : use) : Prop :=
  exists n call, Named e0 (up u) n call /\
    forall c i, ud u = Some (c, i) -> exists x m, (exists c', ctxOf w c' = Some x \/ exists p, staticOf w p = Some x) /\ Declares x (c, m) /\ mid m = i /\
      ident cc m = if call then lower cc n else n.
Definition Grown (e0 : ex) (s s' : state) : Prop := forall u, In u (uses s') -> In u (uses s) \/ Fine e0 u.
Lemma grown_trans e0 a b c : Grown e0 a b -> Grown e0 b c -> Grown e0 a c.
Proof. intros H K u X. destruct (K u X) as [Y|Y]; [exact (H u Y)|right; exact Y]. Qed.
Lemma grown_refl e0 a : Grown e0 a a.
Proof. intros u X. left. exact X. Qed.
Lemma grown_ty e0 a b t : Grown e0 a b -> Grown e0 a (setTy t b).
Proof. intros H u X. exact (H u X). Qed.
Lemma grown_emit e0 a b u : Grown e0 a b -> Fine e0 u -> Grown e0 a (emit u b).
Proof. intros H F v X. cbn in X. apply in_app_or in X. destruct X as [X|[<-|[]]]; [exact (H v X)|right; exact F]. Qed.

Lemma fine_unknown e0 p n call : Named e0 p n call -> Fine e0 {| up := p; ud := None |}.
Proof. intros H. exists n, call. split; [exact H|]. cbn. discriminate. Qed.
Lemma fine_used e0 p n call x d (R : exists c', ctxOf w c' = Some x \/ exists p, staticOf w p = Some x) :
  Named e0 p n call -> In d (findDeclarations cc (if call then lower cc n else n) x) -> Fine e0 {| up := p; ud := Some (declOf d) |}.
Proof.
  intros H I. exists n, call. split; [exact H|]. cbn. intros c i E. destruct d as [c' m]. cbn in E. injection E as <- <-.
  apply find_declared in I. destruct I as [A B]. exists x, m. auto.
Qed.

Lemma access_grown e0 b p n stat args s : Part e0 (Member b p n stat args) ->
  Grown e0 s (access cc w p n (match args with Some _ => true | None => false end) s).
Proof.
  intros P. apply N_member in P. set (call := match args with Some _ => true | None => false end) in *. unfold access.
  destruct (targetClass (ty_ s)) as [c|]; [|apply grown_refl]. destruct (ctxOf w c) as [x|] eqn:X; [|apply grown_ty, grown_refl].
  cbv zeta. match goal with |- context [rev ?l] => destruct (rev l) as [|d r] eqn:E end.
  - apply grown_emit; [apply grown_ty, grown_refl|exact (fine_unknown _ _ _ _ P)].
  - apply last_some in E. apply filter_In in E. destruct E as [E _].
    apply grown_emit; [apply grown_ty, grown_refl|]. apply (fine_used e0 p n call x d); [exists c; left; exact X|exact P|exact E].
Qed.
Lemma static_grown e0 p q n call s x t1 t2 : staticOf w p = Some x -> Named e0 q n call ->
  Grown e0 s (match lastFound cc (if call then lower cc n else n) x with Some d => emit {| up := q; ud := Some (declOf d) |} (setTy (t1 d) s) | None => emit {| up := q; ud := None |} (setTy t2 s) end).
Proof.
  intros X P. unfold lastFound. destruct (rev (findDeclarations cc (if call then lower cc n else n) x)) as [|d r] eqn:E.
  - apply grown_emit; [apply grown_ty, grown_refl|exact (fine_unknown _ _ _ _ P)].
  - apply last_some in E. apply grown_emit; [apply grown_ty, grown_refl|].
    apply (fine_used e0 q n call x d); [exists 0%N; right; exists p; exact X|exact P|exact E].
Qed.

Definition GE (e0 e : ex) : Prop := Part e0 e -> forall s, Grown e0 s (eval cc w e s).
Lemma all_grown e0 l : (forall k, In k l -> Part e0 k) -> Forall (GE e0) l -> forall s, Grown e0 s (all cc w l s).
Proof.
  intros P H. revert P. induction H as [|e r O _ IH]; intros P s; [apply grown_refl|]. cbn.
  eapply grown_trans; [apply O, P; left; reflexivity|]. apply IH. intros k Hk. apply P. right. exact Hk.
Qed.
Lemma args_grown e0 a : (forall k, In k (parts a) -> Part e0 k) -> Forall (GE e0) (parts a) -> forall s, Grown e0 s (arguments cc w a s).
Proof. destruct a as [l|]; intros P H s; [apply grown_ty, all_grown; assumption|apply grown_refl]. Qed.
Lemma idx_grown e0 l : (forall k, In (Some k) l -> Part e0 k) -> Forall (PO (GE e0)) l -> forall s, Grown e0 s (idx cc w l s).
Proof.
  intros P H. revert P. induction H as [|[e|] r O _ IH]; intros P s; [apply grown_refl| |]; cbn.
  - eapply grown_trans; [apply O, P; left; reflexivity|]. apply IH. intros k Hk. apply P. right. exact Hk.
  - apply IH. intros k Hk. apply P. right. exact Hk.
Qed.
Lemma lastIdx_grown e0 l : (forall k, In (Some k) l -> Part e0 k) -> Forall (PO (GE e0)) l -> forall s, Grown e0 s (lastIdx cc w l s).
Proof.
  intros P H. revert P. induction H as [|i r O _ IH]; intros P s; [apply grown_refl|]; cbn.
  destruct r as [|j r]; [destruct i as [k|]; [apply O, P; left; reflexivity|apply grown_refl]|].
  apply IH. intros k Hk. apply P. right. exact Hk.
Qed.

Lemma eval_grown e0 e : GE e0 e.
Proof.
  induction e as [l t IH|p|b p n st args IHb IHa|b p n st args IHb IHa|b l IHb IHl|p q n args IHa|p q n|p q n] using ex_ind2; intros P s.
  - rewrite eval_node. apply grown_ty, all_grown; [|exact IH]. intros k H. exact (P_node e0 l t k P H).
  - apply grown_ty, grown_refl.
  - rewrite eval_member. eapply grown_trans; [apply IHb; exact (P_object e0 b p n st args P)|].
    eapply grown_trans; [exact (access_grown e0 b p n st args _ P)|]. apply args_grown; [|exact IHa].
    intros k H. exact (P_argument e0 b p n st args k P H).
  - rewrite eval_dyn. eapply grown_trans; [apply IHb; exact (P_object' e0 b p n st args P)|].
    eapply grown_trans; [apply grown_ty, grown_refl|]. apply args_grown; [|exact IHa].
    intros k H. exact (P_argument' e0 b p n st args k P H).
  - rewrite eval_elem. pose proof (IHb (P_array e0 b l P) s) as G.
    destruct (isCall b).
    + apply grown_ty. eapply grown_trans; [exact G|]. apply lastIdx_grown; [|exact IHl]. intros k H. exact (P_index e0 b l k P H).
    + eapply grown_trans; [exact G|]. apply idx_grown; [|exact IHl]. intros k H. exact (P_index e0 b l k P H).
  - assert (Grown e0 s (setTy (ty_ s) (all cc w args s))) as G.
    { apply grown_ty, all_grown; [|exact IHa]. intros k H. exact (P_static e0 p q n args k P H). }
    pose proof (N_call e0 q n p args P) as NM. cbn [eval]. fold (all cc w). cbv zeta. fold (all cc w args s).
    destruct (staticOf w p) as [x|] eqn:X.
    + unfold lastFound. destruct (rev (findDeclarations cc (lower cc n) x)) as [|d r] eqn:E; [apply grown_ty; exact G|].
      apply last_some in E. apply grown_emit; [apply grown_ty; exact G|].
      apply (fine_used e0 q n true x d); [exists 0%N; right; exists p; exact X|exact NM|exact E].
    + apply grown_emit; [apply grown_ty; exact G|exact (fine_unknown _ _ _ _ NM)].
  - cbn [eval]. destruct (staticOf w p) as [x|] eqn:X; [|apply grown_ty, grown_refl].
    exact (static_grown e0 p q n false s x declTy None X (N_prop e0 q n p P)).
  - cbn [eval]. destruct (staticOf w p) as [x|] eqn:X; [|apply grown_ty, grown_refl].
    exact (static_grown e0 p q n false s x declTy None X (N_const e0 q n p P)).
Qed.

Lemma chain_named e s p c i : In {| up := p; ud := Some (c, i) |} (uses (eval cc w e s)) -> ~ In {| up := p; ud := Some (c, i) |} (uses s) ->
  exists n call x m, Named e p n call /\ (exists c', ctxOf w c' = Some x \/ exists q, staticOf w q = Some x) /\ Declares x (c, m) /\ mid m = i /\
    ident cc m = (if call then lower cc n else n).
Proof.
  intros H N. destruct (eval_grown e e (P_all e) s _ H) as [X|(n & call & A & B)]; [destruct (N X)|].
  destruct (B c i eq_refl) as (x & m & R & D & M & I). exists n, call, x, m. auto.
Qed.
Lemma chain_unknown e s p : In {| up := p; ud := None |} (uses (eval cc w e s)) -> ~ In {| up := p; ud := None |} (uses s) ->
  exists n call, Named e p n call.
Proof.
  intros H N. destruct (eval_grown e e (P_all e) s _ H) as [X|(n & call & A & B)]; [destruct (N X)|]. exists n, call. exact A.
Qed.
End Named.
