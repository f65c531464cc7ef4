From Verif Require Import HelpSpec ComplModel.
Open Scope nat_scope.

(** ** C41 *)
Definition concatP (l : list (qstring * Format)) : qstring := flat_map fst l.
Lemma segs_app l1 l2 n : segments n (l1 ++ l2) = segments n l1 ++ segments (n + List.length (concatP l1)) l2.
Proof.
  revert n. induction l1 as [|[s f] l1 IH]; intros n; cbn.
  - rewrite Nat.add_0_r. reflexivity.
  - rewrite IH, app_length, Nat.add_assoc. reflexivity.
Qed.
Lemma concat_app l1 l2 : concatP (l1 ++ l2) = concatP l1 ++ concatP l2.
Proof. unfold concatP. apply flat_map_app. Qed.

Definition seps (num : nat) : qstring := if Nat.eqb num 0 then [] else str ", ".

(** The state of the loop, by the pieces written so far: [done] are complete, [lead] (default
    of the previous parameter or the open paren) is not highlighted yet. *)
Lemma argLoop_spec fd ds : forall l num dnum done lead,
  (forall i p, nth_error l i = Some p -> snd p =
     if (fd <=? Z.of_nat (num + i))%Z then nth_error ds (dnum + i - Z.to_nat (fd - Z.of_nat num)) else None) ->
  (forall i p, nth_error l i = Some p -> (fd <= Z.of_nat (num + i))%Z -> snd p <> None) ->
  (num = 0 -> lead <> []) ->
  exists done' lead', argLoop (map fst l) num fd ds dnum (concatP done ++ lead) (segments 0 done) (List.length (concatP done))
     = Some (concatP done' ++ lead', segments 0 done', List.length (concatP done')) /\
     done' ++ [(lead' ++ str ")", Normal)] =
     done ++ match l with [] => [(lead ++ str ")", Normal)] | _ => pieces (lead ++ seps num) l end.
Proof.
  induction l as [|[p d] l IH]; intros num dnum done lead HD HS HL.
  - exists done, lead. split; reflexivity.
  - cbn [map argLoop fst].
    pose proof (HD 0 _ eq_refl) as HD0. pose proof (HS 0 _ eq_refl) as HS0. cbn in HD0, HS0.
    rewrite Nat.add_0_r in HD0, HS0.
    match goal with |- context [Nat.eqb (List.length ?r) (List.length (concatP done))] =>
      replace r with (concatP done ++ (lead ++ seps num))
        by (unfold seps; destruct (Nat.eqb num 0); rewrite ?app_nil_r, ?app_assoc; reflexivity) end.
    assert (NE : lead ++ seps num <> []).
    { unfold seps. destruct (Nat.eqb_spec num 0) as [->|N].
      - rewrite app_nil_r. auto.
      - destruct lead; discriminate. }
    set (lead1 := lead ++ seps num) in *.
    assert (L1 : Nat.eqb (List.length (concatP done ++ lead1)) (List.length (concatP done)) = false).
    { apply Nat.eqb_neq. rewrite app_length. destruct lead1; [congruence|cbn; lia]. }
    rewrite L1.
    set (done1 := done ++ [(lead1, Normal)]).
    assert (C1 : concatP done ++ lead1 = concatP done1).
    { unfold done1. rewrite concat_app. cbn. rewrite app_nil_r. reflexivity. }
    assert (S1 : segments 0 done ++ [(List.length (concatP done), List.length (concatP done ++ lead1) - List.length (concatP done), Normal)]
                 = segments 0 done1).
    { unfold done1. rewrite segs_app. cbn. rewrite app_length. do 4 f_equal. lia. }
    rewrite S1, C1.
    assert (E2 : (match p_type p with Some t => concatP done1 ++ t ++ [32%N] | None => concatP done1 end) ++ 36%N :: p_name p
                 = concatP done1 ++ typedName p).
    { unfold typedName. destruct (p_type p); rewrite <- ?app_assoc; reflexivity. }
    rewrite E2. clear E2.
    assert (L2 : Nat.eqb (List.length (concatP done1 ++ typedName p)) (List.length (concatP done1)) = false).
    { apply Nat.eqb_neq. rewrite app_length. unfold typedName. destruct (p_type p) as [t|]; [rewrite !app_length|]; cbn; lia. }
    rewrite L2.
    set (done2 := done1 ++ [(typedName p, Matched)]).
    assert (C2 : concatP done1 ++ typedName p = concatP done2).
    { unfold done2. rewrite concat_app. cbn. rewrite app_nil_r. reflexivity. }
    assert (S2 : segments 0 done1 ++ [(List.length (concatP done1), List.length (concatP done1 ++ typedName p) - List.length (concatP done1), Matched)]
                 = segments 0 done2).
    { unfold done2. rewrite segs_app. cbn. rewrite app_length. do 4 f_equal. lia. }
    rewrite S2, C2.
    assert (FIN : forall done' lead', done' ++ [(lead' ++ str ")", Normal)] =
        done2 ++ match l with [] => [(defaultText d ++ str ")", Normal)] | _ => pieces (defaultText d ++ seps (S num)) l end ->
        done' ++ [(lead' ++ str ")", Normal)] = done ++ pieces lead1 ((p, d) :: l)).
    { intros done' lead' ->. unfold done2, done1. rewrite <- !app_assoc. cbn [app pieces]. destruct l; reflexivity. }
    destruct (fd <=? Z.of_nat num)%Z eqn:EF.
    + apply Z.leb_le in EF. replace (dnum - Z.to_nat (fd - Z.of_nat num)) with dnum in HD0 by lia.
      cbn in HD0. rewrite Nat.add_0_r in HD0. specialize (HS0 EF).
      replace (Z.to_nat (fd - Z.of_nat num)) with 0 in HD0 by lia. rewrite Nat.sub_0_r in HD0.
      destruct (nth_error ds dnum) as [dv|] eqn:EN; [|congruence].
      match goal with |- context [argLoop _ (S num) _ _ _ ?r _ _] =>
        replace r with (concatP done2 ++ defaultText d)
          by (rewrite HD0; destruct dv; cbn; rewrite ?app_nil_r; reflexivity) end.
      destruct (IH (S num) (S dnum) done2 (defaultText d)) as (done' & lead' & H1 & H2).
      * intros i q Hq. rewrite (HD (S i) q Hq). replace (num + S i) with (S num + i) by lia.
        destruct (fd <=? Z.of_nat (S num + i))%Z eqn:E4; [|reflexivity]. f_equal. lia.
      * intros i q Hq Hle. apply (HS (S i) q Hq). lia.
      * discriminate.
      * exists done', lead'. split; [exact H1|]. apply FIN. exact H2.
    + cbn in HD0. rewrite HD0. cbn in FIN. rewrite HD0 in FIN. cbn in FIN.
      apply Z.leb_gt in EF.
      destruct (IH (S num) dnum done2 []) as (done' & lead' & H1 & H2).
      * intros i q Hq. rewrite (HD (S i) q Hq). replace (num + S i) with (S num + i) by lia.
        destruct (fd <=? Z.of_nat (S num + i))%Z eqn:E4; [|reflexivity]. f_equal. lia.
      * intros i q Hq Hle. apply (HS (S i) q Hq). lia.
      * discriminate.
      * rewrite app_nil_r in H1. exists done', lead'. split; [exact H1|]. apply FIN. exact H2.
Qed.

Lemma map_fst_combine {A B} (l : list A) : forall (m : list B), List.length l <= List.length m -> map fst (combine l m) = l.
Proof. induction l as [|a l IH]; intros [|b m] H; cbn in *; try reflexivity; try lia. f_equal. apply IH. lia. Qed.
Lemma nth_combine {A B} (l : list A) : forall (m : list B) i p, nth_error (combine l m) i = Some p ->
  nth_error l i = Some (fst p) /\ nth_error m i = Some (snd p).
Proof.
  induction l as [|a l IH]; intros [|b m] i p H; destruct i as [|i]; cbn in *; try discriminate.
  - injection H as <-. auto.
  - apply IH. exact H.
Qed.

Lemma withDefaults_nth ps ds i p : List.length ds <= List.length ps -> nth_error (withDefaults ps ds) i = Some p ->
  i < List.length ps /\
  snd p = if (Z.of_nat (List.length ps) - Z.of_nat (List.length ds) <=? Z.of_nat i)%Z
          then nth_error ds (i - (List.length ps - List.length ds)) else None.
Proof.
  intros H Hn. unfold withDefaults in Hn. apply nth_combine in Hn. destruct Hn as [H1 H2].
  assert (L : i < List.length ps) by (apply nth_error_Some; congruence). (split; [exact L|]).
  destruct (Nat.lt_ge_cases i (List.length ps - List.length ds)) as [C|C].
  - rewrite nth_error_app1 in H2 by (rewrite repeat_length; exact C).
    replace (_ <=? _)%Z with false by lia.
    apply nth_error_In, repeat_spec in H2. exact H2.
  - rewrite nth_error_app2 in H2 by (rewrite repeat_length; exact C). rewrite repeat_length in H2.
    replace (_ <=? _)%Z with true by lia. rewrite nth_error_map in H2.
    destruct (nth_error ds _); [cbn in H2; congruence|discriminate].
Qed.

Lemma argList_spec ps ds : List.length ds <= List.length ps ->
  exists segs lead last, argPieces ps ds = segs ++ [(lead, last)] /\
  createArgumentList ps ds =
    Some (concatP (argPieces ps ds),
          segments 0 segs ++ [(List.length (concatP segs), List.length (concatP (argPieces ps ds)), last)]).
Proof.
  intros H. unfold createArgumentList, argPieces.
  set (fd := (Z.of_nat (List.length ps) - Z.of_nat (List.length ds))%Z).
  assert (LL : List.length (repeat (@None qstring) (List.length ps - List.length ds) ++ map Some ds) = List.length ps).
  { rewrite app_length, repeat_length, map_length. lia. }
  assert (EM : map fst (withDefaults ps ds) = ps).
  { unfold withDefaults. apply map_fst_combine. rewrite LL. lia. }
  destruct (argLoop_spec fd ds (withDefaults ps ds) 0 0 [] (str "(")) as (done & lead & E & P).
  - intros i p Hp. destruct (withDefaults_nth ps ds i p H Hp) as [Li ->]. cbn.
    fold fd. destruct (fd <=? Z.of_nat i)%Z eqn:E; [|reflexivity]. apply Z.leb_le in E. f_equal. unfold fd in *. lia.
  - intros i p Hp Hle. destruct (withDefaults_nth ps ds i p H Hp) as [Li ->]. fold fd. cbn in Hle.
    replace (fd <=? Z.of_nat i)%Z with true by lia. apply nth_error_Some. unfold fd in *. lia.
  - discriminate.
  - rewrite EM in E. cbn [concatP flat_map app segments List.length] in E. rewrite E.
    assert (P2 : done ++ [(lead ++ str ")", Normal)] = pieces (str "(") (withDefaults ps ds)).
    { rewrite P. cbn [app]. destruct (withDefaults ps ds); [reflexivity|]. unfold seps. cbn [Nat.eqb]. rewrite app_nil_r. reflexivity. }
    exists done, (lead ++ str ")"), Normal. rewrite <- P2. (split; [reflexivity|]).
    rewrite concat_app. cbn [concatP flat_map fst]. rewrite app_nil_r, <- !app_assoc.
    assert (NE : Nat.eqb (List.length (concatP done ++ lead ++ str ")")) (List.length (concatP done)) = false).
    { apply Nat.eqb_neq. rewrite !app_length. cbn. lia. }
    unfold concatP in *. rewrite NE. reflexivity.
Qed.

Lemma argLoop_total fd ds : forall ps num dnum ret hl fs,
  (Z.of_nat dnum = Z.max 0 (Z.of_nat num - Z.max 0 fd))%Z ->
  (Z.of_nat num + Z.of_nat (List.length ps) - fd <= Z.of_nat (List.length ds))%Z ->
  exists r, argLoop ps num fd ds dnum ret hl fs = Some r.
Proof.
  induction ps as [|p ps IH]; intros num dnum ret hl fs H1 H2; cbn [argLoop]; [eauto|].
  cbn [List.length] in H2.
  assert (G : forall ret hl fs, exists r, (if (fd <=? Z.of_nat num)%Z then
        match nth_error ds dnum with
        | None => None
        | Some d => argLoop ps (S num) fd ds (S dnum) (match d with [] => ret | _ => ret ++ str " = " ++ d end) hl fs
        end
      else argLoop ps (S num) fd ds dnum ret hl fs) = Some r).
  { intros ret' hl' fs'. destruct (fd <=? Z.of_nat num)%Z eqn:E.
    - destruct (nth_error ds dnum) as [d|] eqn:EN; [apply IH; lia|]. apply nth_error_None in EN. lia.
    - apply IH; lia. }
  do 2 match goal with |- exists r, (let '(_, _) := ?X in _) = _ => destruct X end. apply G.
Qed.
Lemma argList_total ps ds : exists r, createArgumentList ps ds = Some r.
Proof.
  unfold createArgumentList.
  destruct (argLoop_total (Z.of_nat (List.length ps) - Z.of_nat (List.length ds)) ds ps 0 0 (str "(") [] 0) as [[[r h] f] E]; [lia|lia|].
  rewrite E. eauto.
Qed.
