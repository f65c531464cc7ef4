(** Proofs for C67, whole classes (proof file). *)
From Coq Require Import List Bool Arith Lia.
From Verif Require Import PhpTypes MergeModel VarModel VarSpec VarProofs VarProofs2 VarProofs3 PropertySpec PropertyProofs PropertyProofs2 PropertyProofs3.
Import ListNotations.
Open Scope nat_scope.

Section Walk.
Variable T : st -> nd -> ty.
Variable F : st -> nd -> ty.
Notation visit := (visit T F).

Lemma method_step ps us b s : isClass (cur s) = true -> okP (cft s) b ->
  outer (visit (Fun ps us b) s) = outer s /\
  (forall x, declared (cur (visit (Fun ps us b) s)) x -> declared (cur s) x \/ GivesP b x) /\
  (forall x, GivesP b x -> ~ Mentions b x -> ~ In x (map (fun q => snd (fst q)) ps) -> ~ In x (map snd us) -> ~ anyDeclared (outer s) x ->
     declared (cur (visit (Fun ps us b) s)) x \/ upcoming (cur s) x).
Proof.
  intros HC HO. destruct (visit_prop T F b (enter ps us s) HO (cur s) (outer s) eq_refl HC eq_refl) as (c' & E & A & B).
  cbn [VarModel.visit]. unfold leave. rewrite E. cbn [outer cur setLast setOuter setCur]. split; [reflexivity|]. split; [exact A|].
  intros x HX HM HP HU HR. apply B; auto. intros (d & Hd & Ex). cbn in Hd. apply in_app_iff in Hd as [Hd|Hd].
  - apply HP. rewrite <- (parameters_names (List.length (heap s)) ps), <- Ex. now apply in_map.
  - apply HU. apply (lexical_names s). eauto.
Qed.
Lemma class_steps ms : forall s, isClass (cur s) = true ->
  (forall m, In m ms -> exists ps us b, m = Fun ps us b /\ okP (cft s) b) ->
  (forall x, declared (cur (visit (Op ms) s)) x -> declared (cur s) x \/ exists ps us b, In (Fun ps us b) ms /\ GivesP b x) /\
  (forall x ps us b, In (Fun ps us b) ms -> GivesP b x -> ~ Mentions b x -> ~ In x (map (fun q => snd (fst q)) ps) -> ~ In x (map snd us) -> ~ anyDeclared (outer s) x ->
     declared (cur (visit (Op ms) s)) x \/ upcoming (cur s) x).
Proof.
  induction ms as [|m ms IH]; intros s HC HM; cbn [VarModel.visit fold_left].
  - split; [auto|]. intros x ps us b [].
  - destruct (HM m (or_introl eq_refl)) as (ps & us & b & -> & HO). pose proof (visit_mv T F (Fun ps us b) s) as [M1 M2 M3 _ _].
    destruct (method_step ps us b s HC HO) as (E & A & B). fold visit in *. set (s1 := visit (Fun ps us b) s) in *. fold visit in IH.
    assert (HC1 : isClass (cur s1) = true) by (unfold isClass in *; now rewrite M2).
    destruct (IH s1 HC1) as (A1 & B1); [intros m Hm; rewrite M1; apply HM; now right|]. cbn [VarModel.visit] in A1, B1.
    split.
    + intros x HX. apply A1 in HX as [HX|(ps' & us' & b' & H1 & H2)]; [|right; exists ps', us', b'; cbn; auto].
      apply A in HX as [HX|HX]; [auto|]. right. exists ps, us, b. cbn. auto.
    + intros x ps' us' b' [H|H] H1 H2 H3 H4 H5.
      * injection H as <- <- <-. destruct (B x H1 H2 H3 H4 H5) as [K|K]; [|auto]. left.
        pose proof (visit_mv T F (Op ms) s1) as [_ _ N3 _ _]. exact (N3 x K).
      * destruct (B1 x ps' us' b' H H1 H2 H3 H4) as [K|K]; [now rewrite E|auto|]. right. unfold upcoming in *. now rewrite M2 in K.
Qed.
End Walk.
