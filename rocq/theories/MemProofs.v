From Coq Require Import List Bool Arith NArith Lia.
From Verif Require Import PhpTypes MergeModel MergeSpec MergeProofs MemModel MemSpec.
Import ListNotations.

Section Ind.
Variable P : cls -> Prop.
Hypothesis H : forall n own imps, Forall P imps -> P (Cls n own imps).
Fixpoint cls_ind' (c : cls) : P c :=
  match c with Cls n own imps =>
    H n own imps ((fix go (l : list cls) : Forall P l := match l with [] => Forall_nil P | x :: r => Forall_cons x (cls_ind' x) (go r) end) imps)
  end.
End Ind.

Fixpoint size (c : cls) : nat := match c with Cls _ _ imps => S (list_sum (map size imps)) end.
Lemma size_in i l : In i l -> size i <= list_sum (map size l).
Proof. induction l as [|x l IH]; [intros []|]. intros [->|I]; cbn; [lia|]. specialize (IH I). unfold list_sum in *. lia. Qed.
Lemma above_size x c : Above x c -> size x <= size c.
Proof.
  intros A. induction A as [c|x i c I A IH]; [lia|]. destruct c as [n o l]. cbn [impsOf] in I. cbn [size]. pose proof (size_in i l I). lia.
Qed.
Lemma above_trans x y z : Above x y -> Above y z -> Above x z.
Proof. intros A B. induction B as [z|y i z I B IH]; [exact A|]. eapply A_up; eauto. Qed.
Lemma not_below c i : In i (impsOf c) -> ~ Above c i.
Proof. intros I A. apply above_size in A. destruct c as [n o l]. cbn [impsOf] in I. pose proof (size_in i l I). cbn [size] in A. lia. Qed.

Lemma inb_In n l : existsb (N.eqb n) l = true <-> In n l.
Proof.
  rewrite existsb_exists. split; [intros (x & I & E); apply N.eqb_eq in E; now subst|].
  intros I. exists n. split; [exact I|apply N.eqb_refl].
Qed.

Section U.
Variable root : cls.
Hypothesis coh : coherent root.
Notation U := (fun x => Above x root).

Definition closed (S seen : list N) : Prop :=
  forall x, U x -> In (idOf x) seen -> In (idOf x) S \/ forall y, Above y x -> In (idOf y) seen.
Record post (S : list N) (c : cls) (seen seen' : list N) (l : list member) : Prop := {
  p_sub : incl seen seen';
  p_closed : closed S seen';
  p_above : forall y, Above y c -> In (idOf y) seen';
  p_own : forall x, U x -> In (idOf x) seen' -> In (idOf x) seen \/ incl (ownOf x) l;
  p_from : forall m, In m l -> exists x, Above x c /\ In m (ownOf x) /\ In (idOf x) seen' /\ ~ In (idOf x) seen }.

Lemma all_post c : forall S seen, U c -> closed S seen -> (forall x, U x -> In (idOf x) S -> ~ Above x c) ->
  post S c seen (fst (all c seen)) (snd (all c seen)).
Proof.
  induction c as [n own imps IH] using cls_ind'. intros S seen Uc Hc HS. cbn [all].
  destruct (existsb (N.eqb n) seen) eqn:E.
  - apply inb_In in E. cbn [fst snd]. constructor; auto.
    + apply incl_refl.
    + destruct (Hc _ Uc E) as [X|X]; [|exact X]. exfalso. exact (HS _ Uc X (A_self _)).
    + intros m [].
  - assert (Nn : ~ In n seen) by (intros X; apply inb_In in X; congruence).
    set (me := Cls n own imps) in *.
    (* the imports, from a state in which the class itself is entered *)
    assert (G : forall l s0 l0, (forall i, In i l -> In i imps) -> incl (n :: seen) s0 -> closed (n :: S) s0 ->
       (forall x, U x -> In (idOf x) s0 -> In (idOf x) seen \/ incl (ownOf x) l0) ->
       (forall m, In m l0 -> exists x, Above x me /\ In m (ownOf x) /\ In (idOf x) s0 /\ ~ In (idOf x) seen) ->
       let r := fold_left (fun a i => (fst (all i (fst a)), snd a ++ snd (all i (fst a)))) l (s0, l0) in
       incl s0 (fst r) /\ closed (n :: S) (fst r) /\ (forall i y, In i l -> Above y i -> In (idOf y) (fst r)) /\
       (forall x, U x -> In (idOf x) (fst r) -> In (idOf x) seen \/ incl (ownOf x) (snd r)) /\
       (forall m, In m (snd r) -> exists x, Above x me /\ In m (ownOf x) /\ In (idOf x) (fst r) /\ ~ In (idOf x) seen)).
    { induction l as [|i l IHl]; intros s0 l0 Hl H1 H2 H3 H4.
      - cbn. split; [apply incl_refl|]. split; [exact H2|]. split; [intros i y []|]. split; [exact H3|exact H4].
      - cbn [fold_left]. cbn [fst snd].
        assert (Ii : In i imps) by (apply Hl; now left).
        assert (Pi : post (n :: S) i s0 (fst (all i s0)) (snd (all i s0))).
        { apply (proj1 (Forall_forall _ _) IH i Ii).
          - apply (above_trans i me root); [|exact Uc]. eapply A_up; [exact Ii|constructor].
          - exact H2.
          - intros x Ux [Ex|Ix] A.
            + assert (x = me) by (apply coh; auto). subst x. exact (not_below me i Ii A).
            + apply (HS x Ux Ix). eapply A_up; [exact Ii|exact A]. }
        destruct Pi as [Q1 Q2 Q3 Q4 Q5].
        destruct (IHl (fst (all i s0)) (l0 ++ snd (all i s0))) as (R1 & R2 & R3 & R4 & R5).
        + intros j Hj. apply Hl. now right.
        + intros y Hy. apply Q1. now apply H1.
        + exact Q2.
        + intros x Ux Hx. destruct (Q4 x Ux Hx) as [X|X].
          * destruct (H3 x Ux X) as [Y|Y]; [now left|right]. intros z Hz. apply in_or_app. left. now apply Y.
          * right. intros z Hz. apply in_or_app. right. now apply X.
        + intros m Hm. apply in_app_or in Hm. destruct Hm as [Hm|Hm].
          * destruct (H4 m Hm) as (x & X1 & X2 & X3 & X4). exists x. split; [exact X1|]. split; [exact X2|]. split; [now apply Q1|exact X4].
          * destruct (Q5 m Hm) as (x & X1 & X2 & X3 & X4). exists x. split; [eapply A_up; [exact Ii|exact X1]|]. split; [exact X2|].
            split; [exact X3|]. intros X. apply X4. apply H1. now right.
        + split; [intros y Hy; apply R1; now apply Q1|]. split; [exact R2|].
          split; [|split; [exact R4|exact R5]].
          intros j y [<-|Hj] Hy; [apply R1; now apply Q3|]. exact (R3 j y Hj Hy). }
    destruct (G imps (n :: seen) own) as (R1 & R2 & R3 & R4 & R5).
    + auto.
    + apply incl_refl.
    + intros x Ux [Ex|Ix]; [left; left; exact Ex|]. destruct (Hc x Ux Ix) as [X|X]; [left; now right|right]. intros y Hy. right. now apply X.
    + intros x Ux [Ex|Ix]; [right|now left]. assert (x = me) by (apply coh; auto). subst x. apply incl_refl.
    + intros m Hm. exists me. split; [constructor|]. split; [exact Hm|]. split; [now left|exact Nn].
    + assert (T : forall y, Above y me -> In (idOf y) (fst (fold_left (fun a i => (fst (all i (fst a)), snd a ++ snd (all i (fst a)))) imps (n :: seen, own)))).
      { intros y Hy. inversion Hy as [|? i ? Ii Hi]; subst; [apply R1; now left|exact (R3 i y Ii Hi)]. }
      constructor.
      * intros y Hy. apply R1. now right.
      * intros x Ux Hx. destruct (R2 x Ux Hx) as [[X|X]|X]; [|now left|now right].
        right. assert (x = me) by (apply coh; auto). subst x. exact T.
      * exact T.
      * exact R4.
      * exact R5.
Qed.

Lemma all_exact m : In m (snd (all root [])) <-> has root m.
Proof.
  destruct (all_post root [] [] (A_self _)) as [P1 P2 P3 P4 P5]; [intros x _ []|intros x _ []|].
  split.
  - intros Hm. destruct (P5 m Hm) as (x & A & B & _). now exists x.
  - intros (x & A & B). destruct (P4 x A (P3 x A)) as [[]|X]. now apply X.
Qed.
End U.

(** ** Once *)
Section Once.
Variable root : cls.
Hypothesis coh : coherent root.
Hypothesis dis : distinct root.

Lemma nodup_app (l r : list nat) : NoDup l -> NoDup r -> (forall x, In x l -> ~ In x r) -> NoDup (l ++ r).
Proof.
  induction l as [|a l IH]; intros A B C; [exact B|]. cbn. inversion A as [|? ? X Y]; subst. constructor.
  - intros Z. apply in_app_or in Z. destruct Z as [Z|Z]; [now apply X|]. exact (C a (or_introl eq_refl) Z).
  - apply IH; auto. intros x Hx. apply C. now right.
Qed.

(** [snd] of [all] holds members of classes that enter, [fst] grows. *)
Lemma all_from c : forall seen, incl seen (fst (all c seen)) /\
  (forall m, In m (snd (all c seen)) -> exists x, Above x c /\ In m (ownOf x) /\ In (idOf x) (fst (all c seen)) /\ ~ In (idOf x) seen) /\
  (Above c root -> NoDup (map mid (snd (all c seen)))).
Proof.
  induction c as [n own imps IH] using cls_ind'. intros seen. cbn [all].
  destruct (existsb (N.eqb n) seen) eqn:E.
  - cbn [fst snd]. split; [apply incl_refl|]. split; [intros m []|constructor].
  - assert (Nn : ~ In n seen) by (intros X; apply inb_In in X; congruence).
    set (me := Cls n own imps) in *.
    assert (G : forall l s0 l0, (forall i, In i l -> In i imps) -> incl (n :: seen) s0 ->
       (forall m, In m l0 -> exists x, Above x me /\ In m (ownOf x) /\ In (idOf x) s0 /\ ~ In (idOf x) seen) ->
       (Above me root -> NoDup (map mid l0)) ->
       let r := fold_left (fun a i => (fst (all i (fst a)), snd a ++ snd (all i (fst a)))) l (s0, l0) in
       incl s0 (fst r) /\
       (forall m, In m (snd r) -> exists x, Above x me /\ In m (ownOf x) /\ In (idOf x) (fst r) /\ ~ In (idOf x) seen) /\
       (Above me root -> NoDup (map mid (snd r)))).
    { induction l as [|i l IHl]; intros s0 l0 Hl H1 H4 H5.
      - cbn. split; [apply incl_refl|]. split; [exact H4|exact H5].
      - cbn [fold_left]. cbn [fst snd].
        assert (Ii : In i imps) by (apply Hl; now left).
        destruct (proj1 (Forall_forall _ _) IH i Ii s0) as (Q1 & Q5 & Q6).
        destruct (IHl (fst (all i s0)) (l0 ++ snd (all i s0))) as (R1 & R5 & R6).
        + intros j Hj. apply Hl. now right.
        + intros y Hy. apply Q1. now apply H1.
        + intros m Hm. apply in_app_or in Hm. destruct Hm as [Hm|Hm].
          * destruct (H4 m Hm) as (x & X1 & X2 & X3 & X4). exists x. split; [exact X1|]. split; [exact X2|]. split; [now apply Q1|exact X4].
          * destruct (Q5 m Hm) as (x & X1 & X2 & X3 & X4). exists x. split; [eapply A_up; [exact Ii|exact X1]|]. split; [exact X2|].
            split; [exact X3|]. intros X. apply X4. apply H1. now right.
        + intros Ur. rewrite map_app. assert (Ui : Above i root) by (eapply above_trans; [|exact Ur]; eapply A_up; [exact Ii|constructor]).
          apply nodup_app; [now apply H5|now apply Q6|].
          intros k K1 K2. apply in_map_iff in K1. destruct K1 as (a & <- & Ka). apply in_map_iff in K2. destruct K2 as (b & Eb & Kb).
          destruct (H4 a Ka) as (x & X1 & X2 & X3 & X4). destruct (Q5 b Kb) as (y & Y1 & Y2 & Y3 & Y4).
          assert (x = y).
          { eapply (proj2 dis); [| |exact X2|exact Y2|now symmetry].
            - eapply above_trans; [exact X1|exact Ur].
            - eapply above_trans; [exact Y1|exact Ui]. }
          subst y. exact (Y4 X3).
        + split; [intros y Hy; apply R1; now apply Q1|]. split; [exact R5|exact R6]. }
    destruct (G imps (n :: seen) own) as (R1 & R5 & R6).
    + auto.
    + apply incl_refl.
    + intros m Hm. exists me. split; [constructor|]. split; [exact Hm|]. split; [now left|exact Nn].
    + intros Ur. exact (proj1 dis me Ur).
    + split; [intros y Hy; apply R1; now right|]. split; [exact R5|exact R6].
Qed.
Lemma all_once : NoDup (map mid (snd (all root []))).
Proof. exact (proj2 (proj2 (all_from root [])) (A_self _)). Qed.
End Once.

(** ** Types *)
Section T.
Variable ctxOf : N -> option cls.
Lemma fits_usable stat m : fits stat m = true <-> usable stat m.
Proof.
  unfold fits, usable. rewrite andb_true_iff, negb_true_iff, Nat.eqb_neq, eqb_true_iff. intuition.
Qed.
Lemma containers_In t c : In c (containers ctxOf t) <-> exists d, In (Struct d) (targets t) /\ ctxOf d = Some c.
Proof.
  unfold containers. rewrite in_flat_map. split.
  - intros (x & I & J). destruct x; try now destruct J. exists d. split; [exact I|]. destruct (ctxOf d); [|destruct J]. now destruct J as [->|[]].
  - intros (d & I & E). exists (Struct d). split; [exact I|]. rewrite E. now left.
Qed.
Lemma offered_In stat t m : (forall d c, In (Struct d) (targets t) -> ctxOf d = Some c -> coherent c) ->
  (In m (offered ctxOf stat t) <-> usable stat m /\ exists d c, In (Struct d) (targets t) /\ ctxOf d = Some c /\ has c m).
Proof.
  intros Hc. unfold offered. rewrite in_flat_map. split.
  - intros (c & I & J). apply containers_In in I. destruct I as (d & I & E). apply filter_In in J. destruct J as [J F].
    split; [now apply fits_usable|]. exists d, c. split; [exact I|]. split; [exact E|].
    apply (proj1 (all_exact c (Hc d c I E) m)). exact J.
  - intros (F & d & c & I & E & A). exists c. split; [apply containers_In; eauto|]. apply filter_In. split.
    + apply (proj2 (all_exact c (Hc d c I E) m)). exact A.
    + now apply fits_usable.
Qed.

Lemma dropMixed_In t ts : isMixed t = false -> (In t (dropMixed ts) <-> In t ts).
Proof.
  intros Hm. induction ts as [|x ts IH]; [reflexivity|]. cbn. destruct (isMixed x) eqn:E; [|reflexivity].
  rewrite IH. split; [now right|]. intros [->|I]; [congruence|exact I].
Qed.
Lemma targets_union l d : Forall plain l -> (In (Struct d) (targets (unionOf l)) <-> In (Struct d) l).
Proof.
  intros F. destruct l as [|x [|y l]]; cbn [unionOf].
  - cbn. split; [intros [H|[]]; discriminate|intros []].
  - inversion F as [|? ? X _]; subst. destruct x; try now destruct X; cbn. all: cbn; reflexivity.
  - reflexivity.
Qed.
Lemma assigned stat ts t m : Forall plain ts -> variableType ts = Some t ->
  (forall d c, In (Struct d) ts -> ctxOf d = Some c -> coherent c) ->
  (In m (offered ctxOf stat t) <-> usable stat m /\ exists d c, In (Struct d) ts /\ ctxOf d = Some c /\ has c m).
Proof.
  intros F E Hc. assert (N : ts <> []) by (intros ->; discriminate E).
  rewrite (var_plain ts N F) in E. injection E as <-.
  assert (K : forall d, In (Struct d) (targets (unionOf (firsts (dropMixed ts)))) <-> In (Struct d) ts).
  { intros d. rewrite targets_union.
    - rewrite firsts_in. now apply dropMixed_In.
    - apply Forall_forall. intros x Hx. apply (proj1 (firsts_in _ _)) in Hx. apply (proj1 (Forall_forall _ _) F). clear - Hx.
      induction ts as [|y ts IH]; [exact Hx|]. cbn in Hx. destruct (isMixed y); [right; now apply IH|exact Hx]. }
  rewrite offered_In.
  - split; intros (A & d & c & B & C); split; auto; exists d, c; (split; [now apply K|exact C]).
  - intros d c I. apply Hc. now apply K.
Qed.

Lemma reaches_has c n m : reaches c n m -> has c m /\ mname m = n.
Proof.
  intros R. induction R as [c n m I E|c n m i _ I R ((x & A & B) & IH)].
  - split; [exists c; split; [constructor|exact I]|exact E].
  - split; [exists x; split; [eapply A_up; eauto|exact B]|exact IH].
Qed.
End T.

(** ** Where more or less is offered *)
Section Refuted.
Variable ctxOf : N -> option cls.
Lemma hidden d c i m m' stat : ctxOf d = Some c -> coherent c -> In m' (ownOf c) -> mname m' = mname m -> In i (impsOf c) ->
  In m (ownOf i) -> ~ In m (ownOf c) -> usable stat m ->
  In m (offered ctxOf stat (Struct d)) /\ ~ reaches c (mname m) m.
Proof.
  intros E Hc I1 En Ii I2 No F. split.
  - apply offered_In.
    + intros d' c' [X|[]] E'. injection X as <-. rewrite E in E'. injection E' as <-. exact Hc.
    + split; [exact F|]. exists d, c. split; [now left|]. split; [exact E|]. exists i. split; [|exact I2]. eapply A_up; [exact Ii|constructor].
  - intros R. inversion R as [? ? ? A B|? ? ? ? A B C]; subst; [now apply No|]. exact (A m' I1 En).
Qed.

Lemma member_of d c m stat : ctxOf d = Some c -> coherent c -> has c m -> usable stat m ->
  In m (filter (fits stat) (snd (all c []))).
Proof. intros E Hc A F. apply filter_In. split; [now apply (proj2 (all_exact c Hc m))|now apply fits_usable]. Qed.

Lemma twice a b ca cb m stat : a <> b -> ctxOf a = Some ca -> ctxOf b = Some cb -> coherent ca -> coherent cb ->
  has ca m -> has cb m -> usable stat m ->
  exists t, variableType [Struct a; Struct b] = Some t /\ ~ NoDup (map mid (offered ctxOf stat t)).
Proof.
  intros Hab Ea Eb Ha Hb A B F. exists (Unsure [Struct a; Struct b]). split.
  - unfold variableType, assignTo. cbn [fold_left]. unfold assign. cbn [teq]. destruct (N.eqb_spec a b); [contradiction|].
    unfold addT, memT. cbn [existsb teq]. destruct (N.eqb_spec b a) as [X|X]; [now destruct Hab|]. reflexivity.
  - unfold offered, containers, targets. cbn [flat_map]. rewrite Ea, Eb. cbn [app flat_map]. rewrite app_nil_r, map_app.
    intros N. assert (Ia := in_map mid _ _ (member_of a ca m stat Ea Ha A F)). assert (Ib := in_map mid _ _ (member_of b cb m stat Eb Hb B F)).
    apply in_split in Ib. destruct Ib as (l1 & l2 & E2). rewrite E2, app_assoc in N. apply NoDup_remove_2 in N.
    apply N. apply in_or_app. left. apply in_or_app. now left.
Qed.

Lemma reference a b : a <> b -> exists t, variableType [Ref (Struct a); Struct b] = Some t /\ forall stat, offered ctxOf stat t = [].
Proof.
  intros Hab. exists (Ref (Unsure [Struct a; Struct b])). split; [|reflexivity].
  unfold variableType, assignTo. cbn [fold_left]. unfold assign. cbn [teq]. unfold addT, memT. cbn [existsb teq].
  destruct (N.eqb_spec b a) as [X|X]; [now destruct Hab|]. reflexivity.
Qed.

Lemma order a l : (forall d, In (Struct d) l -> d <> a) -> exists t u,
  variableType [Struct a; Unsure l] = Some t /\ variableType [Unsure l; Struct a] = Some u /\
  (forall stat, offered ctxOf stat t = offered ctxOf stat (Struct a)) /\
  (forall stat, offered ctxOf stat u = offered ctxOf stat (Unsure l) ++ offered ctxOf stat (Struct a)).
Proof.
  intros Hl. exists (Unsure [Struct a; Unsure l]), (Unsure (l ++ [Struct a])). split; [reflexivity|]. split; [|split].
  - unfold variableType, assignTo. cbn [fold_left]. unfold assign. cbn [teq]. unfold addT.
    assert (M : memT (Struct a) l = false).
    { unfold memT. destruct (existsb (teq (Struct a)) l) eqn:E; [|reflexivity]. exfalso. apply existsb_exists in E. destruct E as (x & I & Q).
      destruct x; try discriminate Q. cbn [teq] in Q. apply N.eqb_eq in Q. subst. exact (Hl _ I eq_refl). }
    now rewrite M.
  - intros stat. unfold offered, containers, targets. cbn [flat_map]. destruct (ctxOf a); reflexivity.
  - intros stat. unfold offered, containers, targets. rewrite flat_map_app, flat_map_app. reflexivity.
Qed.
End Refuted.
