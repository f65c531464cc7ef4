(** Proofs for C69, third part: whole files. *)
From Coq Require Import List String Relations Lia.
From Verif Require Import Chars SemModel SemSpec SemProofs SemProofs2.
Import ListNotations.
Open Scope nat_scope.

Lemma app_last_inv A (a b c : list A) (x t : A) :
  a ++ [t] = b ++ x :: c -> (c = [] /\ b = a /\ x = t) \/ exists c', c = c' ++ [t] /\ a = b ++ x :: c'.
Proof.
  intros E. destruct (exists_last (l := x :: c)) as (c0 & y & Ec); [discriminate|].
  rewrite Ec, app_assoc in E. apply app_inj_tail in E. destruct E as [E <-].
  destruct c0 as [|z c0].
  - left. injection Ec as -> ->. rewrite app_nil_r in E. auto.
  - right. injection Ec as <- ->. exists c0. auto.
Qed.

Section Files.
Variable cc : CharClass.
Notation rep := (rep cc).
Notation visit := (visit cc true false).
Notation visitTop := (visitTop cc true false).

Lemma InForce_snoc a t : InForce (a ++ [t]) <->
  match t with
  | TNode _ => InForce a
  | TNamespace parts None => parts <> []
  | TNamespace _ (Some _) => False
  end.
Proof.
  split.
  - intros (x & parts & y & E & N & F). apply app_last_inv in E. destruct E as [(-> & -> & <-)|(y' & -> & ->)]; [exact N|].
    destruct t as [n|parts' [l|]].
    + exists x, parts, y'. split; [reflexivity|split; [exact N|]]. intros p b I. apply (F p b), in_or_app; auto.
    + exfalso. apply (F parts' (Some l)), in_or_app. right; now left.
    + exfalso. apply (F parts' None), in_or_app. right; now left.
  - destruct t as [n|parts [l|]]; intros H.
    + destruct H as (x & parts & y & -> & N & F). exists x, parts, (y ++ [TNode n]). split; [now rewrite <- app_assoc|split; [exact N|]].
      intros p b I. apply in_app_iff in I. destruct I as [I|[I|[]]]; [exact (F p b I)|discriminate].
    + destruct H.
    + exists a, parts, []. split; [reflexivity|split; [exact H|]]. intros p b [].
Qed.

Lemma Stmt_snoc a t pl n : Stmt (a ++ [t]) (pl, n) <-> Stmt a (pl, n) \/
  match t with
  | TNode m => m = n /\ ((pl = InNs /\ InForce a) \/ (pl = AtTop /\ ~ InForce a))
  | TNamespace parts (Some l) => In n l /\ pl = (match parts with [] => AtTop | _ => InNs end)
  | TNamespace _ None => False
  end.
Proof.
  split.
  - intros H. inversion H as [x ? y E F|x ? y E F|parts l ? I N In_|l ? I In_]; subst.
    + apply app_last_inv in E. destruct E as [(-> & -> & <-)|(y' & -> & ->)]; [auto|]. left. now apply (st_ns _ x n y').
    + apply app_last_inv in E. destruct E as [(-> & -> & <-)|(y' & -> & ->)]; [auto|]. left. now apply (st_top _ x n y').
    + apply in_app_iff in I. destruct I as [I|[->|[]]]; [left; now apply (st_block _ parts l)|]. right. destruct parts; [congruence|auto].
    + apply in_app_iff in I. destruct I as [I|[->|[]]]; [left; now apply (st_global _ l)|]. right. auto.
  - intros [H|H].
    + inversion H as [x ? y E F|x ? y E F|parts l ? I N In_|l ? I In_]; subst.
      * apply (st_ns _ x n (y ++ [t])); [now rewrite <- app_assoc|auto].
      * apply (st_top _ x n (y ++ [t])); [now rewrite <- app_assoc|auto].
      * apply (st_block _ parts l); auto. apply in_or_app; auto.
      * apply (st_global _ l); auto. apply in_or_app; auto.
    + destruct t as [m|parts [l|]]; [|destruct H as [I ->]|destruct H].
      * destruct H as [-> [[-> F]|[-> F]]]; [now apply (st_ns _ a n [])|now apply (st_top _ a n [])].
      * assert (J : In (TNamespace parts (Some l)) (a ++ [TNamespace parts (Some l)])) by (apply in_or_app; right; now left).
        destruct parts; [now apply (st_global _ l)|now apply (st_block _ (q :: parts) l)].
Qed.

Lemma closeNs_ctxs n s : ctxs (closeNs n s) = skipn n (ctxs s).
Proof. revert s; induction n as [|n IH]; intros s; cbn; auto. rewrite IH. cbn. destruct (ctxs s); cbn; auto. now rewrite skipn_nil. Qed.
Lemma closeNs_probs n s : probs (closeNs n s) = probs s.
Proof. revert s; induction n as [|n IH]; intros s; cbn; auto. now rewrite IH. Qed.
Lemma closeNs_openNs n s : openNs (closeNs n s) = openNs s.
Proof. revert s; induction n as [|n IH]; intros s; cbn; auto. now rewrite IH. Qed.
Lemma openNsN_ctxs n s : ctxs (openNsN n s) = repeat TNamespaceCtx n ++ ctxs s.
Proof. revert s; induction n as [|n IH]; intros s; cbn; auto. rewrite IH. cbn.
  change (TNamespaceCtx :: ctxs s) with ([TNamespaceCtx] ++ ctxs s). rewrite app_assoc. rewrite <- repeat_cons. reflexivity. Qed.
Lemma openNsN_probs n s : probs (openNsN n s) = probs s.
Proof. revert s; induction n as [|n IH]; intros s; cbn; auto. now rewrite IH. Qed.
Lemma openNsN_openNs n s : openNs (openNsN n s) = openNs s.
Proof. revert s; induction n as [|n IH]; intros s; cbn; auto. now rewrite IH. Qed.
Lemma skipn_repeat A (x : A) n l : skipn n (repeat x n ++ l) = l.
Proof. induction n; cbn; auto. Qed.

Lemma visitAll_rep l s : fold_left (fun s m => visit m s) l s = plus s (flat_map (rep (curType s)) l).
Proof. apply fold_plus with (K := fun s' => curType s' = curType s); auto. intros a s' _ E. rewrite <- E. apply visit_rep. Qed.

Definition Inv (a : list top) (s : st) : Prop :=
  ctxs s = repeat TNamespaceCtx (openNs s) ++ [TGlobal] /\ (openNs s <> 0 <-> InForce a) /\
  forall x, In x (probs s) <-> exists pl n, Stmt a (pl, n) /\ In x (rep (ct pl) n).

Lemma Inv_step a t s : Inv a s -> Inv (a ++ [t]) (visitTop s t).
Proof.
  intros (C & O & P). destruct t as [n|parts block]; cbn [SemModel.visitTop].
  - rewrite visit_rep. split; [exact C|split].
    + rewrite InForce_snoc. exact O.
    + intros x. change (probs (plus s (rep (curType s) n))) with (probs s ++ rep (curType s) n).
      rewrite in_app_iff, P. unfold curType. rewrite C. split.
      * intros [(pl & m & S & H)|H].
        -- exists pl, m. rewrite Stmt_snoc. auto.
        -- destruct (openNs s) as [|k].
           ++ exists AtTop, n. split; [|exact H]. apply Stmt_snoc. right. split; auto. right. split; auto.
              intros F. apply O in F. now apply F.
           ++ exists InNs, n. split; [|exact H]. apply Stmt_snoc. right. split; auto. left. split; auto. apply O. discriminate.
      * intros (pl & m & S & H). apply Stmt_snoc in S. destruct S as [S|[<- [[-> F]|[-> F]]]]; [eauto| |].
        -- right. apply O in F. destruct (openNs s); [congruence|exact H].
        -- right. destruct (openNs s) as [|k]; [exact H|]. exfalso. apply F, O. discriminate.
  - set (s1 := setOpenNs 0 (closeNs (openNs s) s)).
    assert (C1 : ctxs s1 = [TGlobal]).
    { unfold s1. change (ctxs (setOpenNs 0 (closeNs (openNs s) s))) with (ctxs (closeNs (openNs s) s)).
      rewrite closeNs_ctxs, C. apply skipn_repeat. }
    assert (O1 : openNs s1 = 0) by reflexivity.
    assert (P1 : probs s1 = probs s) by apply closeNs_probs. clearbody s1.
    destruct parts as [|q parts].
    + destruct block as [l|].
      * rewrite visitAll_rep. split; [cbn [plus ctxs openNs]; rewrite C1, O1; reflexivity|split].
        -- rewrite InForce_snoc. cbn [plus openNs]. rewrite O1. tauto.
        -- intros x. cbn [plus probs]. rewrite in_app_iff, P1, P, in_flat_map. unfold curType. rewrite C1. split.
           ++ intros [(pl & m & S & H)|(m & I & H)].
              ** exists pl, m. rewrite Stmt_snoc. auto.
              ** exists AtTop, m. rewrite Stmt_snoc. auto.
           ++ intros (pl & m & S & H). apply Stmt_snoc in S. destruct S as [S|[I ->]]; [eauto|]. right. eauto.
      * split; [rewrite C1, O1; reflexivity|split].
        -- rewrite InForce_snoc, O1. tauto.
        -- intros x. rewrite P1, P. split; intros (pl & m & S & H); exists pl, m; (split; [|exact H]).
           ++ rewrite Stmt_snoc. auto.
           ++ apply Stmt_snoc in S. tauto.
    + set (k := List.length (q :: parts)).
      assert (K : k <> 0) by discriminate. clearbody k.
      set (s2 := openNsN k s1).
      assert (C2 : ctxs s2 = repeat TNamespaceCtx k ++ [TGlobal]) by (unfold s2; rewrite openNsN_ctxs, C1; reflexivity).
      assert (O2 : openNs s2 = 0) by (unfold s2; now rewrite openNsN_openNs).
      assert (P2 : probs s2 = probs s) by (unfold s2; now rewrite openNsN_probs).
      assert (T2 : curType s2 = TNamespaceCtx) by (unfold curType; rewrite C2; destruct k; [congruence|reflexivity]).
      clearbody s2.
      destruct block as [l|].
      * rewrite visitAll_rep, T2. split; [|split].
        -- rewrite closeNs_ctxs, closeNs_openNs. cbn [plus ctxs openNs]. rewrite C2, O2. apply skipn_repeat.
        -- rewrite InForce_snoc, closeNs_openNs. cbn [plus openNs]. rewrite O2. tauto.
        -- intros x. rewrite closeNs_probs. cbn [plus probs]. rewrite in_app_iff, P2, P, in_flat_map. split.
           ++ intros [(pl & m & S & H)|(m & I & H)].
              ** exists pl, m. rewrite Stmt_snoc. auto.
              ** exists InNs, m. rewrite Stmt_snoc. auto.
           ++ intros (pl & m & S & H). apply Stmt_snoc in S. destruct S as [S|[I ->]]; [eauto|]. right. eauto.
      * split; [exact C2|split].
        -- rewrite InForce_snoc. cbn [setOpenNs openNs]. split; [discriminate|auto].
        -- intros x. cbn [setOpenNs probs]. rewrite P2, P. split; intros (pl & m & S & H); exists pl, m; (split; [|exact H]).
           ++ rewrite Stmt_snoc. auto.
           ++ apply Stmt_snoc in S. tauto.
Qed.

Lemma Stmt_nil r : ~ Stmt [] r.
Proof. intros H. inversion H as [x ? y E F|x ? y E F|parts l ? I N In_|l ? I In_]; subst; try destruct I; now destruct x. Qed.
Lemma Inv_file l : Inv l (fold_left visitTop l initial).
Proof.
  induction l as [|t l IH] using rev_ind.
  - split; [reflexivity|split].
    + cbn. split; [congruence|]. intros (a & p & b & E & _). now destruct a.
    + intros x. cbn. split; [intros []|]. intros (pl & n & S & _). destruct (Stmt_nil _ S).
  - rewrite fold_left_app. now apply Inv_step.
Qed.

(** The problems of a file: what some piece, where it is, calls for. *)
Theorem check_pieces file x :
  In x (check cc true false file) <-> exists pl n, Has file pl n /\ In x (loc cc pl n).
Proof.
  unfold check. rewrite (proj2 (proj2 (Inv_file file))). unfold Has. split.
  - intros (pl & n & S & H). apply In_rep in H. destruct H as (pl' & m & C & L). exists pl', m. split; eauto.
  - intros (pl & n & ([pl0 n0] & S & C) & L). exists pl0, n0. split; [exact S|]. apply In_rep. eauto.
Qed.
End Files.
