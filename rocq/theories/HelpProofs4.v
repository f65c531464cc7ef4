(** The templates of the program are well formed: a reader for templates and checks. *)
From Verif Require Import HelpSpec HelpProofs2 HelpProofs3.
Open Scope nat_scope.

Definition readMarker (s : qstring) : option (Marker * nat) :=
  if isPrefix (str "%INDENT%") s then Some (MIndent, 7)
  else if isPrefix (str "%CURSOR%") s then Some (MCursor, 7)
  else if isPrefix (str "%SELECT%") s then Some (MSelect, 7)
  else if isPrefix (str "%ENDSELECT%") s then Some (MEndSelect, 10) else None.
Fixpoint readT (s : qstring) (skip : nat) : list Piece :=
  match s with
  | [] => []
  | c :: r =>
      match skip with
      | S k => readT r k
      | 0 => match readMarker s with
             | Some (m, n) => PMark m :: readT r n
             | None => (if N.eqb c cNL then PNewline else PChar c) :: readT r 0
             end
      end
  end.
Definition plainb (t : list Piece) : bool :=
  forallb (fun p => match p with PNewline | PMark MIndent => true
                    | PChar c => negb (N.eqb c cPERCENT) && negb (N.eqb c cNL) | _ => false end) t.
Lemma plainb_ok t : plainb t = true -> plain t.
Proof.
  unfold plainb. rewrite forallb_forall. intros H p Hp. specialize (H p Hp).
  destruct p as [c| |m]; [|auto|destruct m; auto; discriminate].
  right. right. exists c. apply andb_true_iff in H. rewrite !negb_true_iff, !N.eqb_neq in H. tauto.
Qed.
(** The text up to the next marker. *)
Fixpoint run (t : list Piece) : option qstring :=
  match t with
  | PMark _ :: _ => Some []
  | PChar c :: r => match run r with Some s => Some (c :: s) | None => None end
  | _ => None
  end.
Definition isName (s : qstring) : bool :=
  eqs s (markerName MIndent) || eqs s (markerName MCursor) || eqs s (markerName MSelect) || eqs s (markerName MEndSelect).
Fixpoint unambb (t : list Piece) : bool :=
  match t with
  | [] => true
  | PMark _ :: r => match run r with Some s => negb (isName s) | None => true end && unambb r
  | _ :: r => unambb r
  end.
Lemma run_ok s m post : run (map PChar s ++ PMark m :: post) = Some s.
Proof. induction s as [|c s IH]; [reflexivity|]. cbn. rewrite IH. reflexivity. Qed.
Lemma unambb_ok t : unambb t = true -> unambiguous t.
Proof.
  intros H pre. revert t H. induction pre as [|p pre IH]; intros t H m1 s m2 post m E; subst t; cbn in H.
  - rewrite run_ok in H. apply andb_true_iff in H. destruct H as [H _]. intros ->.
    destruct m; cbn in H; discriminate.
  - assert (unambb (pre ++ PMark m1 :: map PChar s ++ PMark m2 :: post) = true).
    { destruct p; auto. apply andb_true_iff in H. apply H. }
    exact (IH _ H0 m1 s m2 post m eq_refl).
Qed.
Fixpoint splitAt (m : Marker) (t : list Piece) : option (list Piece * list Piece) :=
  match t with
  | [] => None
  | PMark m' :: r => if meq m m' then Some ([], r)
                     else match splitAt m r with Some (a, b) => Some (PMark m' :: a, b) | None => None end
  | p :: r => match splitAt m r with Some (a, b) => Some (p :: a, b) | None => None end
  end.
Lemma splitAt_ok m t : forall a b, splitAt m t = Some (a, b) -> t = a ++ PMark m :: b.
Proof.
  induction t as [|p t IH]; intros a b H; [discriminate|]. destruct p as [c| |m']; cbn in H.
  - destruct (splitAt m t) as [[a' b']|]; [|discriminate]. injection H as <- <-. cbn. rewrite (IH a' b' eq_refl). reflexivity.
  - destruct (splitAt m t) as [[a' b']|]; [|discriminate]. injection H as <- <-. cbn. rewrite (IH a' b' eq_refl). reflexivity.
  - destruct (meq m m') eqn:E.
    + apply meq_eq in E. injection H as <- <-. subst. reflexivity.
    + destruct (splitAt m t) as [[a' b']|]; [|discriminate]. injection H as <- <-. cbn. rewrite (IH a' b' eq_refl). reflexivity.
Qed.
Fixpoint charsOf (t : list Piece) : option qstring :=
  match t with
  | [] => Some []
  | PChar c :: r => match charsOf r with Some s => Some (c :: s) | None => None end
  | _ => None
  end.
Lemma charsOf_ok t : forall s, charsOf t = Some s -> t = map PChar s.
Proof.
  induction t as [|p t IH]; intros s H; cbn in H; [injection H as <-; reflexivity|].
  destruct p; try discriminate. destruct (charsOf t) as [s'|]; [|discriminate]. injection H as <-. cbn. rewrite (IH s' eq_refl). reflexivity.
Qed.
Definition wfb (t : list Piece) : bool :=
  negb (match t with [] => true | _ => false end) && unambb t &&
  (plainb t ||
   match splitAt MCursor t with Some (a, b) => plainb a && plainb b | None => false end ||
   match splitAt MSelect t with
   | Some (a, r) => match splitAt MEndSelect r with
                    | Some (s, b) => match charsOf s with
                                     | Some s => plainb a && plainb b && negb (match s with [] => true | _ => false end)
                                                 && forallb (fun c => negb (N.eqb c cPERCENT) && negb (N.eqb c cNL)) s
                                     | None => false end
                    | None => false end
   | None => false end).
Lemma wfb_ok t : wfb t = true -> wellFormed t.
Proof.
  unfold wfb. rewrite !andb_true_iff. intros [[H1 H2] H3]. split; [destruct t; [discriminate|discriminate]|].
  split; [apply unambb_ok; exact H2|]. apply orb_true_iff in H3. destruct H3 as [H3|H3]; [apply orb_true_iff in H3; destruct H3 as [H3|H3]|].
  - left. apply plainb_ok. exact H3.
  - right. left. destruct (splitAt MCursor t) as [[a b]|] eqn:E; [|discriminate]. apply andb_true_iff in H3. destruct H3 as [HA HB].
    exists a, b. split; [apply splitAt_ok; exact E|]. split; apply plainb_ok; assumption.
  - right. right. destruct (splitAt MSelect t) as [[a r]|] eqn:E; [|discriminate].
    destruct (splitAt MEndSelect r) as [[s b]|] eqn:E2; [|discriminate].
    destruct (charsOf s) as [s'|] eqn:E3; [|discriminate]. rewrite !andb_true_iff in H3. destruct H3 as [[[HA HB] HN] HS].
    exists a, s', b. apply splitAt_ok in E, E2. apply charsOf_ok in E3. subst s r. split; [exact E|].
    split; [apply plainb_ok; exact HA|]. split; [apply plainb_ok; exact HB|]. split; [destruct s'; discriminate|].
    rewrite forallb_forall in HS. intros c Hc. specialize (HS c Hc). rewrite andb_true_iff, !negb_true_iff, !N.eqb_neq in HS. exact HS.
Qed.
