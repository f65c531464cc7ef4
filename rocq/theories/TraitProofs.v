From Verif Require Import TraitModel TraitSpec.

Lemma aliases_iff l m : aliases l m = true <-> l_aliasOf l = Some (m_id m).
Proof.
  unfold aliases. destruct (l_aliasOf l) as [i|]; [|split; discriminate].
  rewrite Nat.eqb_eq. split; congruence.
Qed.

Lemma scan_notfound t m ls : Forall wfLoc ls ->
  (scan t m ls = NotFound <-> forall l, In l ls -> ~ hides l m).
Proof.
  intros F. induction F as [|l r W F IH]; cbn [scan].
  - split; [intros _ l []|reflexivity].
  - assert (C : hides l m <-> aliases l m = true \/ Nat.eqb (l_name l) (m_name m) = true).
    { unfold hides. rewrite aliases_iff, Nat.eqb_eq. tauto. }
    assert (IFF : (forall x, In x (l :: r) -> ~ hides x m) <-> ~ hides l m /\ forall x, In x r -> ~ hides x m).
    { split; [intros H; split; [apply H; left; reflexivity|intros x Hx; apply H; right; exact Hx]|].
      intros [A B] x [<-|Hx]; auto. }
    rewrite IFF, C, <- IH. destruct (l_kind l) eqn:K.
    + assert (A : aliases l m = false).
      { unfold aliases. rewrite (W K). reflexivity. }
      rewrite A. destruct (Nat.eqb (l_name l) (m_name m)).
      * split; [discriminate|tauto].
      * split; [intros ->; split; [intros [X|X]; discriminate|reflexivity]|tauto].
    + destruct (aliases l m); [split; [discriminate|tauto]|].
      destruct (Nat.eqb (l_name l) (m_name m)).
      * destruct (isOverriding l (t_local t)); [split; [discriminate|tauto]|].
        destruct (m_isMethod m); split; try discriminate; tauto.
      * split; [intros ->; split; [intros [X|X]; discriminate|reflexivity]|tauto].
    + destruct (aliases l m); [split; [discriminate|tauto]|].
      destruct (Nat.eqb (l_name l) (m_name m)); [split; [discriminate|tauto]|].
      split; [intros ->; split; [intros [X|X]; discriminate|reflexivity]|tauto].
Qed.

Lemma aliasFor_copy m : copyOf (aliasFor m) m.
Proof. repeat split. cbn. destruct (m_isMethod m); discriminate. Qed.
Lemma aliasFor_wf m : wfLoc (aliasFor m).
Proof. intros K. cbn in K. destruct (m_isMethod m); discriminate. Qed.

(** The declarations added for one trait. *)
Lemma importMembers_in t sn ms : Forall wfLoc sn -> forall l,
  In l (fst (importMembers t sn ms)) <->
  exists m, In m ms /\ l = aliasFor m /\ forall x, In x sn -> ~ hides x m.
Proof.
  intros F. induction ms as [|m r IH]; intros l; cbn [importMembers].
  - cbn. split; [intros []|intros (m & [] & _)].
  - destruct (importMembers t sn r) as [ls es]. cbn [fst] in IH.
    pose proof (scan_notfound t m sn F) as S.
    assert (STEP : (exists m0, In m0 (m :: r) /\ l = aliasFor m0 /\ (forall x, In x sn -> ~ hides x m0)) <->
                   (l = aliasFor m /\ scan t m sn = NotFound) \/ In l ls).
    { rewrite IH, S. split.
      - intros (m0 & [<-|H] & E & N); [left; auto|right; eauto].
      - intros [(E & N)|(m0 & H & E & N)]; [exists m; cbn; auto|exists m0; cbn; auto]. }
    rewrite STEP. destruct (scan t m sn); cbn.
    + split; [intros [H|H]; [left; auto|right; exact H]|intros [[H _]|H]; auto].
    + split; [auto|intros [[_ H]|H]; [discriminate|exact H]].
    + split; [auto|intros [[_ H]|H]; [discriminate|exact H]].
Qed.

Lemma importMembers_wf t sn ms : Forall wfLoc (fst (importMembers t sn ms)).
Proof.
  induction ms as [|m r IH]; cbn [importMembers]; [constructor|].
  destruct (importMembers t sn r) as [ls es]. cbn in IH.
  destruct (scan t m sn); cbn; auto. constructor; [apply aliasFor_wf|exact IH].
Qed.

Lemma importMembers_names t sn ms : Forall wfLoc sn -> NoDup (map m_name ms) ->
  NoDup (map l_name (fst (importMembers t sn ms))).
Proof.
  intros F ND. induction ms as [|m r IH]; cbn [importMembers]; [constructor|].
  inversion ND as [|x l N1 N2]; subst. pose proof (importMembers_in t sn r F) as I.
  destruct (importMembers t sn r) as [ls es]. cbn in IH, I. specialize (IH N2).
  destruct (scan t m sn); cbn; auto. constructor; [|exact IH].
  intros H. apply in_map_iff in H. destruct H as (l & E & H). apply I in H.
  destruct H as (m0 & H0 & -> & _). apply N1. apply in_map_iff. exists m0. auto.
Qed.

Definition result (ls : list Loc) (ts : list (option TraitD)) : list Loc := fst (importTraits ls ts).

Lemma importTraits_step ls t r : 
  importTraits ls (Some t :: r) =
  (result (ls ++ fst (importMembers t ls (t_members t))) r,
   snd (importMembers t ls (t_members t)) ++ snd (importTraits (ls ++ fst (importMembers t ls (t_members t))) r)).
Proof.
  cbn [importTraits]. unfold result. destruct (importMembers t ls (t_members t)) as [new es]. cbn [fst snd].
  destruct (importTraits (ls ++ new) r) as [ls' es']. reflexivity.
Qed.

Lemma result_step ls t r : result ls (Some t :: r) = result (ls ++ fst (importMembers t ls (t_members t))) r.
Proof. unfold result at 1. rewrite importTraits_step. reflexivity. Qed.

(** Only additions. *)
Lemma result_extends ts : forall ls, exists new, result ls ts = ls ++ new.
Proof.
  induction ts as [|[t|] r IH]; intros ls.
  - exists []. rewrite app_nil_r. reflexivity.
  - rewrite result_step. destruct (IH (ls ++ fst (importMembers t ls (t_members t)))) as (new & E).
    exists (fst (importMembers t ls (t_members t)) ++ new). rewrite E, app_assoc. reflexivity.
  - exists []. rewrite app_nil_r. reflexivity.
Qed.

Lemma wf_app ls t : Forall wfLoc ls -> Forall wfLoc (ls ++ fst (importMembers t ls (t_members t))).
Proof. intros F. apply Forall_app. split; [exact F|apply importMembers_wf]. Qed.

(** Every added declaration copies a trait member that nothing in the class hid. *)
Lemma result_added ts : forall ls, Forall wfLoc ls -> forall l, In l (result ls ts) -> In l ls \/
  exists t m, In t (resolvedPrefix ts) /\ In m (t_members t) /\ copyOf l m /\ forall x, In x ls -> ~ hides x m.
Proof.
  induction ts as [|[t|] r IH]; intros ls F l H.
  - left. exact H.
  - rewrite result_step in H. apply (IH _ (wf_app ls t F)) in H. destruct H as [H|(t0 & m & H1 & H2 & H3 & H4)].
    + apply in_app_or in H. destruct H as [H|H]; [left; exact H|right].
      apply importMembers_in in H; [|exact F]. destruct H as (m & H1 & -> & H2).
      exists t, m. split; [left; reflexivity|]. split; [exact H1|]. split; [apply aliasFor_copy|exact H2].
    + right. exists t0, m. split; [right; exact H1|]. split; [exact H2|]. split; [exact H3|].
      intros x Hx. apply H4. apply in_or_app. left. exact Hx.
  - left. exact H.
Qed.

(** Every member of a trait in front of the first unresolved one is represented. *)
Lemma result_complete ts : forall ls, Forall wfLoc ls -> forall t m,
  In t (resolvedPrefix ts) -> In m (t_members t) -> exists l, In l (result ls ts) /\ hides l m.
Proof.
  induction ts as [|[t|] r IH]; intros ls F t0 m Ht Hm; try destruct Ht.
  - subst t0. rewrite result_step. destruct (result_extends r (ls ++ fst (importMembers t ls (t_members t)))) as (new & E).
    rewrite E. pose proof (scan_notfound t m ls F) as S. destruct (scan t m ls) eqn:C.
    + exists (aliasFor m). split; [|right; reflexivity]. apply in_or_app. left. apply in_or_app. right.
      apply importMembers_in; [exact F|]. exists m. split; [exact Hm|]. split; [reflexivity|]. apply S. reflexivity.
    + assert (D : exists l, In l ls /\ hides l m).
      { clear - C. induction ls as [|l ls IHl]; cbn in C; [discriminate|].
        assert (CC : hides l m \/ ~ (aliases l m = true \/ Nat.eqb (l_name l) (m_name m) = true)).
        { unfold hides. rewrite <- aliases_iff, <- Nat.eqb_eq.
          destruct (aliases l m), (Nat.eqb (l_name l) (m_name m)); intuition congruence. }
        destruct CC as [CC|CC]; [exists l; cbn; auto|].
        destruct (aliases l m); [exfalso; apply CC; auto|]. destruct (Nat.eqb (l_name l) (m_name m)); [exfalso; apply CC; auto|].
        destruct (l_kind l); destruct (IHl C) as (x & Hx & Hh); exists x; cbn; auto. }
      destruct D as (l & Hl & Hh). exists l. split; [|exact Hh]. apply in_or_app. left. apply in_or_app. left. exact Hl.
    + assert (D : exists l, In l ls /\ hides l m).
      { clear - C. induction ls as [|l ls IHl]; cbn in C; [discriminate|].
        assert (CC : hides l m \/ ~ (aliases l m = true \/ Nat.eqb (l_name l) (m_name m) = true)).
        { unfold hides. rewrite <- aliases_iff, <- Nat.eqb_eq.
          destruct (aliases l m), (Nat.eqb (l_name l) (m_name m)); intuition congruence. }
        destruct CC as [CC|CC]; [exists l; cbn; auto|].
        destruct (aliases l m); [exfalso; apply CC; auto|]. destruct (Nat.eqb (l_name l) (m_name m)); [exfalso; apply CC; auto|].
        destruct (l_kind l); destruct (IHl C) as (x & Hx & Hh); exists x; cbn; auto. }
      destruct D as (l & Hl & Hh). exists l. split; [|exact Hh]. apply in_or_app. left. apply in_or_app. left. exact Hl.
  - rewrite result_step. apply (IH _ (wf_app ls t F) t0 m H Hm).
Qed.

(** A name the class already has gets no second declaration; names stay unique. *)
Lemma NoDup_app_intro {A} (a b : list A) : NoDup a -> NoDup b -> (forall x, In x a -> ~ In x b) -> NoDup (a ++ b).
Proof.
  intros N1 N2 D. induction N1 as [|x a Hx N1 IH]; [exact N2|]. cbn. constructor.
  - intros H. apply in_app_or in H. destruct H as [H|H]; [auto|]. exact (D x (or_introl eq_refl) H).
  - apply IH. intros y Hy. apply D. right. exact Hy.
Qed.

Lemma result_names ts : forall ls, Forall wfLoc ls -> NoDup (map l_name ls) ->
  Forall distinctNames (resolvedPrefix ts) -> NoDup (map l_name (result ls ts)).
Proof.
  induction ts as [|[t|] r IH]; intros ls F ND D; try exact ND.
  rewrite result_step. cbn [resolvedPrefix] in D. inversion D as [|x y D1 D2]; subst.
  apply IH; [apply wf_app; exact F| |exact D2].
  rewrite map_app. apply NoDup_app_intro; [exact ND|apply importMembers_names; [exact F|exact D1]|].
  intros n Hn Hi. apply in_map_iff in Hn. destruct Hn as (l & <- & Hl).
  apply in_map_iff in Hi. destruct Hi as (l2 & E & Hl2).
  apply importMembers_in in Hl2; [|exact F]. destruct Hl2 as (m & _ & -> & N).
  apply (N l Hl). right. symmetry. exact E.
Qed.

Lemma result_existing_name ts : forall ls, Forall wfLoc ls -> forall l0, In l0 ls -> forall l,
  In l (result ls ts) -> l_name l = l_name l0 -> In l ls.
Proof.
  intros ls F l0 H0 l H E. apply (result_added ts ls F) in H. destruct H as [H|(t & m & _ & _ & C & N)]; [exact H|].
  exfalso. apply (N l0 H0). right. destruct C as (C & _). congruence.
Qed.

(** The first trait that has a name provides it. *)
Lemma result_first ts1 t ts2 ls m : Forall wfLoc ls ->
  In m (t_members t) ->
  (forall l, In l ls -> ~ hides l m) ->
  (forall t' m', In t' ts1 -> In m' (t_members t') -> m_name m' <> m_name m /\ m_id m' <> m_id m) ->
  In (aliasFor m) (result ls (map Some ts1 ++ Some t :: ts2)).
Proof.
  revert ls. induction ts1 as [|t1 r IH]; intros ls F Hm N D; cbn [map app].
  - rewrite result_step. destruct (result_extends ts2 (ls ++ fst (importMembers t ls (t_members t)))) as (new & ->).
    apply in_or_app. left. apply in_or_app. right. apply importMembers_in; [exact F|]. exists m. auto.
  - rewrite result_step. apply IH; [apply wf_app; exact F|exact Hm| |].
    + intros l Hl. apply in_app_or in Hl. destruct Hl as [Hl|Hl]; [auto|].
      apply importMembers_in in Hl; [|exact F]. destruct Hl as (m' & H1 & -> & _).
      destruct (D t1 m' (or_introl eq_refl) H1) as [D1 D2]. intros [X|X]; cbn in X; congruence.
    + intros t' m' Ht. apply D. right. exact Ht.
Qed.
