(** C71: the text. *)
From Verif Require Import OvrSpec ComplModel ClsProofs HelpProofs HelpProofs2 HelpProofs3 HelpProofs4.
Open Scope nat_scope.

(** ** Cursors *)
Lemma linesLen_typed pre : forall post, linesLen (countNl pre) (pre ++ post) + tailLen pre 0 = List.length pre.
Proof.
  assert (G : forall pre post n, linesLen (countNl pre) (pre ++ post) + tailLen pre n =
                                 List.length pre + (if Nat.eqb (countNl pre) 0 then n else 0)).
  { clear pre. induction pre as [|c pre IH]; intros post n; [reflexivity|].
    unfold countNl. cbn [filter]. destruct (N.eqb cNL c) eqn:E.
    - apply N.eqb_eq in E. subst c. cbn [List.length Nat.eqb linesLen tailLen app]. change (N.eqb cNL cNL) with true. cbv iota.
      fold (countNl pre). specialize (IH post 0). destruct (Nat.eqb (countNl pre) 0); lia.
    - fold (countNl pre). cbn [tailLen List.length]. rewrite (N.eqb_sym c cNL), E. specialize (IH post (S n)).
      destruct (countNl pre) as [|m] eqn:C; cbn [Nat.eqb linesLen] in *; [lia|].
      cbn [app]. rewrite (N.eqb_sym c cNL), E. lia. }
  intros post. rewrite G. destruct (Nat.eqb _ _); lia.
Qed.
Lemma typed_cursor pre : typed origin pre = {| k_line := countNl pre; k_col := tailLen pre 0 |}.
Proof. rewrite <- (cursor_right origin pre); [reflexivity|now right]. Qed.
Lemma offset_typed pre post : offset (pre ++ post) (typed origin pre) = List.length pre.
Proof. rewrite typed_cursor. unfold offset. cbn [k_line k_col]. apply linesLen_typed. Qed.
Lemma before_typed pre post : textBefore (pre ++ post) (typed origin pre) = pre.
Proof. unfold textBefore. rewrite offset_typed. rewrite firstn_app, Nat.sub_diag, firstn_all. cbn. apply app_nil_r. Qed.
Lemma replace_typed a b c s : replaceText (a ++ b ++ c) (typed origin a) (typed origin (a ++ b)) s = a ++ s ++ c.
Proof.
  unfold replaceText. rewrite offset_typed. rewrite firstn_app, Nat.sub_diag, firstn_all. cbn [firstn]. rewrite app_nil_r. f_equal. f_equal.
  rewrite (app_assoc a b c), offset_typed. rewrite skipn_app, skipn_all, Nat.sub_diag. reflexivity.
Qed.
Lemma firstLine_split s : exists x, s = firstLine s ++ x /\ (x = [] \/ exists y, x = cNL :: y) /\ ~ In cNL (firstLine s).
Proof.
  induction s as [|c s (x & E & B & N)]; [exists []; cbn; auto|]. cbn. destruct (N.eqb c cNL) eqn:EC.
  - apply N.eqb_eq in EC. subst c. exists (cNL :: s). split; [reflexivity|]. split; [right; exists s; reflexivity|intros []].
  - exists x. cbn. (split; [congruence|]). (split; [exact B|]). intros [->|H]; [discriminate EC|auto].
Qed.
Lemma tail_split pre : exists a1 a2, pre = a1 ++ a2 /\ (a1 = [] \/ exists x, a1 = x ++ [cNL]) /\ ~ In cNL a2 /\
  forall post, linesLen (countNl pre) (pre ++ post) = List.length a1.
Proof.
  induction pre as [|c pre (a1 & a2 & E & B & N & L)]; [exists [], []; cbn; auto|].
  destruct (N.eqb cNL c) eqn:EC.
  - apply N.eqb_eq in EC. subst c. exists (cNL :: a1), a2. (split; [cbn; congruence|]). split; [right|split; [exact N|]].
    + destruct B as [->|(x & ->)]; [exists []; reflexivity|exists (cNL :: x); reflexivity].
    + intros post. unfold countNl. cbn [filter]. change (N.eqb cNL cNL) with true. cbv iota. cbn [List.length linesLen app].
      change (N.eqb cNL cNL) with true. cbv iota. f_equal. apply L.
  - destruct (countNl pre) as [|m] eqn:C.
    + assert (Z : a1 = []) by (specialize (L []); cbn in L; destruct a1; [reflexivity|discriminate]). subst a1. cbn in E. subst a2.
      exists [], (c :: pre). (split; [reflexivity|]). (split; [auto|]). (split; [intros [->|H]; [discriminate EC|auto]|]).
      intros post. unfold countNl. cbn [filter]. rewrite EC. fold (countNl pre). rewrite C. reflexivity.
    + exists (c :: a1), a2. (split; [cbn; congruence|]). split; [right|split; [exact N|]].
      * destruct B as [->|(x & ->)]; [specialize (L []); exfalso|exists (c :: x); reflexivity].
        destruct pre as [|e pre]; [discriminate C|]. cbn in L. destruct (N.eqb e cNL); discriminate.
      * intros post. unfold countNl. cbn [filter]. rewrite EC. fold (countNl pre). rewrite C. specialize (L post).
        cbn [linesLen app List.length] in *. rewrite (N.eqb_sym c cNL), EC. lia.
Qed.
