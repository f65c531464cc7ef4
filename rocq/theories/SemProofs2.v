(** Proofs for C69, second part: what the pieces call for, by places, and the rules. *)
From Coq Require Import List String Relations.
From Verif Require Import Chars SemModel SemSpec SemProofs.
Import ListNotations.
Open Scope nat_scope.

Section Rules.
Variable cc : CharClass.
Notation rep := (rep cc).
Notation BreaksHere := (BreaksHere cc).

Definition ct (pl : place) : ctype :=
  match pl with AtTop => TGlobal | InNs => TNamespaceCtx | InClass _ => TClassCtx | InParams => TFunctionCtx | InBody => TOther | InValue => TClassCtx end.

(** What the node itself calls for. *)
Definition loc (pl : place) (n : nd) : list (why * nat) :=
  match n with
  | Parts _ => []
  | Yield p _ => if isOther (ct pl) then [] else [(YieldOutside, p)]
  | Call _ args => argsRep (fun _ _ => []) TOther None args
  | Fun ps ret _ => paramsRep cc (fun _ _ => []) None ps ++ flat_map (hintRep cc) ret
  | Class k p name l => flat_map (memberRep cc (fun _ _ => []) k) l ++ (if isReservedClassName cc name then [(ReservedName, p)] else [])
  | Foreach _ _ _ _ => []
  | Use l => flat_map (useRep cc (ct pl)) l
  end.

Lemma In_argsRep R x c prev l :
  In x (argsRep R c prev l) <-> In x (argsRep (fun _ _ => []) TOther prev l) \/ exists a, In a l /\ In x (R c (aExpr a)).
Proof.
  revert prev; induction l as [|a l IH]; intros prev; cbn [argsRep app].
  - split; [intros []|intros [[]|(a & [] & _)]].
  - rewrite !in_app_iff, IH. split.
    + intros [H|[H|[H|(b & I & H)]]]; auto; right.
      * exists a; split; [now left|exact H].
      * exists b; split; [now right|exact H].
    + intros [[H|H]|(b & [->|I] & H)]; auto. right; right; right. exists b; auto.
Qed.
Lemma In_paramsRep R x prev l :
  In x (paramsRep cc R prev l) <-> In x (paramsRep cc (fun _ _ => []) prev l)
    \/ exists q p t e, In q l /\ pDefault q = Some (p, t, e) /\ In x (R TFunctionCtx e).
Proof.
  revert prev; induction l as [|q l IH]; intros prev; cbn [paramsRep].
  - split; [intros []|intros [[]|(q & p & t & e & [] & _)]].
  - assert (Z : (match pDefault q with Some (_, _, _) => @nil (why * nat) | None => [] end) = []) by (now destruct (pDefault q) as [[[? ?] ?]|]).
    rewrite Z. cbn [app]. rewrite !in_app_iff, IH. split.
    + intros [H|[H|[H|[H|[H|(q' & p & t & e & I & D & H)]]]]]; auto 6.
      * destruct (pDefault q) as [[[p t] e]|] eqn:D; [|destruct H]. right. exists q, p, t, e. split; [now left|auto].
      * right. exists q', p, t, e. split; [now right|auto].
    + intros [[H|[H|[H|H]]]|(q' & p & t & e & [->|I] & D & H)]; auto 6.
      * rewrite D. auto.
      * do 4 right. right. exists q', p, t, e. auto.
Qed.
Lemma In_memberRep R x k m :
  In x (memberRep cc R k m) <-> In x (memberRep cc (fun _ _ => []) k m)
    \/ (exists f, m = MMethod f /\ In x (R TClassCtx f))
    \/ (exists h vs e, m = MProp h vs /\ In e vs /\ In x (R TClassCtx e))
    \/ (exists p c e, m = MConst p c e /\ In x (R TClassCtx e)).
Proof.
  assert (Z : forall A (l : list A), flat_map (fun _ => @nil (why * nat)) l = []) by (induction l; auto).
  destruct m as [f|h vs|p c e]; cbn [memberRep].
  - split; [eauto|]. intros [[]|[(g & E & H)|[(h & vs & e & E & _)|(p & c & e & E & _)]]]; try discriminate. congruence.
  - rewrite !in_app_iff, !in_flat_map. split.
    + intros [H|(e & I & H)]; eauto. right; right; left. eauto 8.
    + intros [[H|(e & I & [])]|[(g & E & H)|[(h' & vs' & e & E & I & H)|(p & c & e & E & _)]]]; try discriminate; auto.
      injection E as <- <-. right; eauto.
  - rewrite !in_app_iff. split.
    + intros [H|H]; auto. right; right; right; eauto 8.
    + intros [[H|[]]|[(g & E & H)|[(h & vs & e' & E & _)|(p' & c' & e' & E & H)]]]; try discriminate; auto.
      injection E as <- <- <-. auto.
Qed.

Lemma In_rep_step pl n x :
  In x (rep (ct pl) n) <-> In x (loc pl n) \/ exists pl' m, Part (pl, n) (pl', m) /\ In x (rep (ct pl') m).
Proof.
  destruct n as [l|p l|f args|ps r b|k p nm l|h v1 v2 b|l]; cbn [SemProofs.rep loc].
  - rewrite in_flat_map. split.
    + intros (m & I & H). right. exists pl, m. split; [now constructor|auto].
    + intros [[]|(pl' & m & Q & H)]. inversion Q as [? ? ? I| | | | | | | | | | | | ]; subst. eauto.
  - rewrite in_app_iff, in_flat_map. split.
    + intros [(m & I & H)|H]; [right|auto]. exists pl, m. split; [now constructor|auto].
    + intros [H|(pl' & m & Q & H)]; [auto|]. left. inversion Q as [|? ? ? ? I| | | | | | | | | | | ]; subst. eauto.
  - rewrite in_app_iff, in_flat_map, In_argsRep. split.
    + intros [(m & I & H)|[H|(a & I & H)]]; [right|auto|right].
      * exists pl, m. split; [now constructor|auto].
      * exists pl, (aExpr a). split; [now constructor|auto].
    + intros [H|(pl' & m & Q & H)]; [auto|].
      inversion Q as [| |? ? ? ? I|? ? ? a I| | | | | | | | | ]; subst; [left; eauto|right; right; eauto].
  - rewrite !in_app_iff, In_paramsRep. split.
    + intros [[H|(q & p & t & e & I & D & H)]|[H|H]]; [auto| |auto|].
      * right. exists InParams, e. split; [now apply (pa_default pl ps r b q p t e)|auto].
      * destruct b as [b|]; [|destruct H]. right. exists InBody, b. split; [constructor|auto].
    + intros [[H|H]|(pl' & m & Q & H)]; [auto|auto|].
      inversion Q as [| | | |? ? ? ? q p t e I D|? ? ? ?| | | | | | | ]; subst; [|auto].
      left; right. exists q, p, t, m. auto.
  - rewrite !in_app_iff, !in_flat_map. split.
    + intros [(m & I & H)|H]; [|auto].
      apply In_memberRep in H. destruct H as [H|[(g & -> & H)|[(h & vs & e & -> & Ie & H)|(cp & cn & e & -> & H)]]].
      * left. left. eauto.
      * right. exists (InClass k), g. split; [now constructor|auto].
      * right. exists InValue, e. split; [now apply (pa_prop pl k p nm l h vs e)|auto].
      * right. exists InValue, e. split; [now apply (pa_const pl k p nm l cp cn e)|auto].
    + intros [[(m & I & H)|H]|(pl' & m & Q & H)]; [|auto|].
      * left. exists m. split; auto. apply In_memberRep. auto.
      * left. inversion Q as [| | | | | |? ? ? ? ? ? I|? ? ? ? ? h vs ? I Ie|? ? ? ? ? cp cn ? I| | | | ]; subst.
        -- exists (MMethod m). split; auto.
        -- exists (MProp h vs). split; auto. apply In_memberRep. right; right; left. eauto 8.
        -- exists (MConst cp cn m). split; auto. apply In_memberRep. right; right; right. eauto 8.
  - rewrite !in_app_iff. split.
    + intros H. right.
      assert (Q : In x (rep (ct pl) h) \/ In x (rep (ct pl) v1) \/ In x (rep (ct pl) b)
        \/ In x (match v2 with Some v => rep (ct pl) v | None => [] end)) by tauto.
      destruct Q as [Q|[Q|[Q|Q]]].
      * exists pl, h. split; [constructor|auto].
      * exists pl, v1. split; [constructor|auto].
      * exists pl, b. split; [constructor|auto].
      * destruct v2 as [v|]; [|destruct Q]. exists pl, v. split; [constructor|auto].
    + intros [[]|(pl' & m & Q & H)]. inversion Q; subst; auto 6.
  - split; [auto|]. intros [H|(pl' & m & Q & H)]; [auto|inversion Q].
Qed.

Lemma In_rep n : forall pl x,
  In x (rep (ct pl) n) <-> exists pl' m, clos_refl_trans_1n _ Part (pl, n) (pl', m) /\ In x (loc pl' m).
Proof.
  intros pl x. split.
  - revert pl. induction n as [l IH|p l IH|f args IHf IHa|ps r b IHp IHb|k p nm l IH|h v1 v2 b IHh IH1 IH2 IHb|l] using nd_all; intros pl H.
    all: apply In_rep_step in H; destruct H as [H|(pl' & m & Q & H)]; [eexists _, _; split; [constructor|exact H]|].
    all: assert (K : exists pl2 m2, clos_refl_trans_1n _ Part (pl', m) (pl2, m2) /\ In x (loc pl2 m2));
      [|destruct K as (pl2 & m2 & C & L); exists pl2, m2; split; [econstructor 2; [exact Q|exact C]|exact L]].
    + inversion Q as [? ? ? I| | | | | | | | | | | | ]; subst. exact (proj1 (Forall_forall _ _) IH m I _ H).
    + inversion Q as [|? ? ? ? I| | | | | | | | | | | ]; subst. exact (proj1 (Forall_forall _ _) IH m I _ H).
    + inversion Q as [| |? ? ? ? I|? ? ? a I| | | | | | | | | ]; subst.
      * exact (proj1 (Forall_forall _ _) IHf m I _ H).
      * exact (proj1 (Forall_forall _ _) IHa a I _ H).
    + inversion Q as [| | | |? ? ? ? q p t e I D|? ? ? ?| | | | | | | ]; subst.
      * exact (proj1 (Forall_forall _ _) IHp q I p t m D _ H).
      * exact (IHb m eq_refl _ H).
    + inversion Q as [| | | | | |? ? ? ? ? ? I|? ? ? ? ? h vs ? I Ie|? ? ? ? ? cp cn ? I| | | | ]; subst.
      * exact (proj1 (Forall_forall _ _) IH _ I _ H).
      * exact (proj1 (Forall_forall _ _) (proj1 (Forall_forall _ _) IH _ I) m Ie _ H).
      * exact (proj1 (Forall_forall _ _) IH _ I _ H).
    + inversion Q; subst; [exact (IHh _ H)|exact (IH1 _ H)|exact (IH2 m eq_refl _ H)|exact (IHb _ H)].
    + inversion Q.
  - intros (pl' & m & C & L).
    remember (pl, n) as a eqn:Ea. remember (pl', m) as z eqn:Ez. revert pl n Ea.
    induction C as [a|a b z P C IH]; intros pl n Ea.
    + assert (E : (pl, n) = (pl', m)) by congruence. injection E as -> ->. apply In_rep_step. auto.
    + destruct b as [pb nb]. subst a. apply In_rep_step. right. exists pb, nb. split; [exact P|]. now apply IH.
Qed.
End Rules.
