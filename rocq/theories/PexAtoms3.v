(** Arrays, new objects and the other constructs of PHP. *)
From Coq Require Import List Bool NArith ZArith Lia Arith.
From Verif Require Import Chars LexModel ParseModel ParseSpec ParseProofs PexSpec PexProofs PexProofs2 PexProofs4 PexPath PexPath2 PexAtoms PexAtoms2.
Import ListNotations.
Open Scope nat_scope.

Section Atoms3.
Variable rs : Gen.
Context {Fs : Functions} {FsR : FunctionsRead rs}.
Notation Good := (Good rs).
Notation Reads := (Reads rs).
Notation Takes := (Takes rs).
Notation goodPart := (goodPart rs).
Notation goodSeg := (goodSeg rs).
Notation goodVar := (goodVar rs).
Ltac yes := apply takes_alt_l; [vm_compute; reflexivity|].
Ltac no := apply takes_alt_r; [vm_compute; reflexivity|].
Ltac nav := first [yes|no; nav].
Ltac neq := eapply stop_neq; [eassumption|vm_compute; reflexivity].
Ltac tnot ks := apply (test_not _ ks); [discriminate|vm_compute; reflexivity|vm_compute; reflexivity|].

(** ** Arrays *)
Definition asVar (v : ex) : Prop := goodVar (text v, v).
Definition keyText (k : ex) : list Tok := wrap 5 k (text k).
Definition goodEntry (n : entry ex) : Prop :=
  match n with
  | NVal a => Good 0 (text a) a false
  | NPair k a => Good 5 (keyText k) k false /\ Good 0 (text a) a false
  | NRef v => asVar v
  | NPairRef k v => Good 5 (keyText k) k false /\ asVar v
  end.
Definition nText : entry ex -> list Tok := entryText text keyText.
(** behind an element: a comma or the end *)
Definition endsEntry (r : list Tok) : Prop := hd T_EOF r = T_COMMA \/ hd T_EOF r = T_RPAREN \/ hd T_EOF r = T_RBRACKET.
Lemma ends_stops : forall r, endsEntry r -> stops 0 r.
Proof. intros r [E|[E|E]]; unfold stops; rewrite E; vm_compute; reflexivity. Qed.
Lemma ends_path : forall r, endsEntry r -> endsPath r.
Proof. intros r [E|[E|E]]; unfold endsPath, quiet, nodim; rewrite E; repeat split; discriminate. Qed.
Lemma takes_entry : forall n r, goodEntry n -> endsEntry r -> Takes (IN n_arrayPairValue) (nText n) r [VEntry n].
Proof.
  intros n r G E. unfold nText.
  assert (NA : hd T_EOF r <> T_DOUBLE_ARROW) by (intros X; destruct E as [E|[E|E]]; rewrite E in X; discriminate).
  destruct n as [a|k a|v|k v]; cbn [goodEntry entryText] in *.
  - apply (takes_N rs _ _ _ [VEx a]); [exact (test_part rs 0 (rule n_arrayPairValue) _ _ _ r G ltac:(discriminate) ltac:(vm_compute; reflexivity))| |reflexivity].
    cbn [rule alts]. apply takes_alt_l; [eapply (test_part rs 0); [exact G|discriminate|vm_compute; reflexivity]|]. cbn [seqs].
    rewrite <- (app_nil_r (text a)). apply takes_cons; [apply takes_expr; [exact G|now apply ends_stops]|].
    apply takes_opt_no. tnot [T_DOUBLE_ARROW]. intros k [<-|[]]. exact NA.
  - destruct G as [GK GA]. 
    assert (GK0 : Good 0 (keyText k) k false) by (apply (up_le rs 0 5); [lia|lia|exact GK]).
    apply (takes_N rs _ _ _ [VEx k; VTok T_DOUBLE_ARROW; VEx a]); [rewrite <- app_assoc; exact (test_part rs 0 (rule n_arrayPairValue) _ _ _ _ GK0 ltac:(discriminate) ltac:(vm_compute; reflexivity))| |reflexivity].
    cbn [rule alts]. apply takes_alt_l; [rewrite <- app_assoc; eapply (test_part rs 0); [exact GK0|discriminate|vm_compute; reflexivity]|]. cbn [seqs].
    apply takes_cons; [exact (reads_takes_N rs 0 _ _ _ _ (proj2 (key_reads rs _ _ _ _ GK)))|].
    nav. apply takes_T. apply takes_alt_l; [eapply (test_part rs 0); [exact GA|discriminate|vm_compute; reflexivity]|].
    apply takes_expr; [exact GA|now apply ends_stops].
  - apply (takes_N rs _ _ _ [VTok T_BIT_AND; VEx v]); [vm_compute; reflexivity| |reflexivity].
    cbn [rule alts]. no. yes. cbn [seqs]. apply takes_T. apply (proj2 (proj2 G)). now apply ends_path.
  - destruct G as [GK GA].
    assert (GK0 : Good 0 (keyText k) k false) by (apply (up_le rs 0 5); [lia|lia|exact GK]).
    apply (takes_N rs _ _ _ [VEx k; VTok T_DOUBLE_ARROW; VTok T_BIT_AND; VEx v]); [rewrite <- app_assoc; exact (test_part rs 0 (rule n_arrayPairValue) _ _ _ _ GK0 ltac:(discriminate) ltac:(vm_compute; reflexivity))| |reflexivity].
    cbn [rule alts]. apply takes_alt_l; [rewrite <- app_assoc; eapply (test_part rs 0); [exact GK0|discriminate|vm_compute; reflexivity]|]. cbn [seqs].
    apply takes_cons; [exact (reads_takes_N rs 0 _ _ _ _ (proj2 (key_reads rs _ _ _ _ GK)))|].
    nav. apply takes_T. no. yes. apply takes_T. apply (proj2 (proj2 GA)). now apply ends_path.
Qed.
Lemma entry_hd : forall n (r : list Tok), goodEntry n -> nText n <> [] /\ In (hd T_EOF (nText n)) (T_BIT_AND :: heads 0).
Proof.
  intros n r G. assert (K : forall w e, Good 0 w e false -> w <> [] /\ In (hd T_EOF w) (T_BIT_AND :: heads 0)) by (intros w e [[N I0] _]; split; [exact N|now right]).
  unfold nText. destruct n as [a|k a|v|k v]; cbn [goodEntry entryText] in *.
  - exact (K _ _ G).
  - destruct (K _ _ (up_le rs 0 5 _ _ _ ltac:(lia) ltac:(lia) (proj1 G))) as [N I0]. split; [destruct (keyText k); [congruence|discriminate]|]. now rewrite hd_app.
  - split; [discriminate|now left].
  - destruct (K _ _ (up_le rs 0 5 _ _ _ ltac:(lia) ltac:(lia) (proj1 G))) as [N I0]. split; [destruct (keyText k); [congruence|discriminate]|]. now rewrite hd_app.
Qed.
Definition cellOf (n : entry ex) : cell := (nText n, VEntry n).
Lemma cellOf_text : forall l, map fst (map cellOf l) = map nText l.
Proof. intros l. rewrite map_map. reflexivity. Qed.
Lemma entries_cells : forall l, l <> [] -> entriesOf (cellVals (map cellOf l)) = Some (false, l) /\ entriesOf (cellEnds (map cellOf l)) = Some (true, l).
Proof.
  induction l as [|n l IH]; intros N; [congruence|]. destruct l as [|m l]; [split; reflexivity|]. destruct (IH ltac:(discriminate)) as [E1 E2]. split.
  - change (cellVals (map cellOf (n :: m :: l))) with (VEntry n :: VTok T_COMMA :: cellVals (map cellOf (m :: l))).
    cbn [entriesOf]. rewrite E1. destruct l; reflexivity.
  - change (cellEnds (map cellOf (n :: m :: l))) with (VEntry n :: VTok T_COMMA :: cellEnds (map cellOf (m :: l))).
    cbn [entriesOf]. rewrite E2. reflexivity.
Qed.
Lemma upTo_app : forall k vs, upTo k (vs ++ [VTok k]) = Some vs.
Proof.
  intros k. induction vs as [|v vs IH]; [cbn; now rewrite teq_refl|]. cbn [app upTo]. destruct v; try (now rewrite IH). destruct (vs ++ [VTok k]) eqn:E; [destruct vs; discriminate|]. now rewrite IH.
Qed.
(** The elements up to the end. *)
Definition innerText (comma : bool) (l : list (entry ex)) : list Tok := commas (map nText l) ++ (if comma then [T_COMMA] else []).
Lemma takes_entries : forall b comma l r, b = T_RPAREN \/ b = T_RBRACKET -> (forall n, In n l -> goodEntry n) -> (comma = true -> l <> []) ->
  exists vs, Takes (alts [IList (IN n_arrayPairValue) T_COMMA (Some b); IEps]) (innerText comma l) (b :: r) vs /\ entriesOf vs = Some (comma, l).
Proof.
  intros b comma l r B G C. unfold innerText.
  assert (EB : endsEntry (b :: r)) by (destruct B as [-> | ->]; unfold endsEntry; cbn; tauto).
  destruct l as [|n l].
  - destruct comma; [exfalso; now apply C|]. exists []. split; [|reflexivity]. cbn [map commas app alts].
    apply takes_alt_r; [destruct B as [-> | ->]; vm_compute; reflexivity|]. yes. apply takes_eps.
  - assert (T1 : test (IList (IN n_arrayPairValue) T_COMMA (Some b)) (at_ ((commas (map nText (n :: l)) ++ (if comma then [T_COMMA] else [])) ++ b :: r)) = true).
    { destruct (entry_hd n [] (G n (or_introl eq_refl))) as [N I0]. cbn [test]. unfold enters. apply orb_true_iff. right.
      rewrite (yytoken_hd _ _ eq_refl). cbn [rest at_]. rewrite <- app_assoc.
      replace (hd T_EOF (commas (map nText (n :: l)) ++ (if comma then [T_COMMA] else []) ++ b :: r)) with (hd T_EOF (nText n)).
      - assert (X : forallb (fun k => mem k (first (IList (IN n_arrayPairValue) T_COMMA (Some b)))) (T_BIT_AND :: heads 0) = true) by (destruct B as [-> | ->]; vm_compute; reflexivity).
        exact (forallb_In _ _ _ _ X I0).
      - symmetry. rewrite <- cellOf_text. cbn [map]. rewrite (cells_hd (cellOf n) (map cellOf l)); [reflexivity|exact N]. }
    assert (HB : forall p, In p (map cellOf (n :: l)) -> fst p <> [] /\ hd T_EOF (fst p) <> b).
    { intros p Hp. apply in_map_iff in Hp as (m & <- & Hm). destruct (entry_hd m [] (G m Hm)) as [N I0]. split; [exact N|]. intros E. cbn [fst cellOf] in E. rewrite E in I0.
      assert (X : forallb (fun k => negb (teq k b)) (T_BIT_AND :: heads 0) = true) by (destruct B as [-> | ->]; vm_compute; reflexivity).
      pose proof (forallb_In _ _ _ _ X I0) as Y. cbv beta in Y. rewrite teq_refl in Y. discriminate Y. }
    assert (NE : map cellOf (n :: l) <> []) by discriminate.
    destruct (entries_cells (n :: l) ltac:(discriminate)) as [E1 E2]. destruct comma.
    + exists (cellEnds (map cellOf (n :: l))). split; [|exact E2]. cbn [alts]. apply takes_alt_l; [exact T1|]. rewrite <- cellOf_text.
      apply takes_cells_end; [exact NE| |exact HB].
      intros p r' Hp [r2 ->]. apply in_map_iff in Hp as (m & <- & Hm). apply takes_entry; [now apply G|left; reflexivity].
    + exists (cellVals (map cellOf (n :: l))). split; [|exact E1]. cbn [alts]. apply takes_alt_l; [exact T1|]. rewrite <- cellOf_text, app_nil_r.
      apply takes_cells; [exact NE|destruct B as [-> | ->]; discriminate| |].
      * intros p r' Hp Hr. apply in_map_iff in Hp as (m & <- & Hm). apply takes_entry; [now apply G|]. destruct Hr as [[r2 ->]| ->]; [left; reflexivity|exact EB].
      * intros b' E p Hp. injection E as <-. now apply HB.
Qed.
Definition aText (short comma : bool) (l : list (entry ex)) : list Tok := arrayText short comma (map nText l).
Lemma takes_array : forall short comma l r, (forall n, In n l -> goodEntry n) -> (comma = true -> l <> []) ->
  Takes (IN n_varExpressionArray) (aText short comma l) r [VEx (EArray short comma l)].
Proof.
  intros short comma l r G C. unfold aText, arrayText. change (commas (map nText l) ++ (if comma then [T_COMMA] else [])) with (innerText comma l).
  destruct short.
  - destruct (takes_entries T_RBRACKET comma l r (or_intror eq_refl) G C) as (vs & T & EV).
    apply (takes_N rs _ _ _ (VTok T_LBRACKET :: (vs ++ [VTok T_RBRACKET]))); [vm_compute; reflexivity| |].
    + cbn [rule]. change (alts [?a; ?b]) with (IAlt a (IAlt b IFail)). no. yes. change (seqs [IT T_LBRACKET; ?a; ?b]) with (ISeq (IT T_LBRACKET) (ISeq a b)).
      apply takes_T. apply (takes_seq rs _ _ (innerText comma l) [T_RBRACKET] r vs [VTok T_RBRACKET]); [exact T|apply takes_tok].
    + cbn [readNode]. unfold arrayOf. rewrite upTo_app, EV. reflexivity.
  - destruct (takes_entries T_RPAREN comma l r (or_introl eq_refl) G C) as (vs & T & EV).
    apply (takes_N rs _ _ _ (VTok T_ARRAY :: VTok T_LPAREN :: (vs ++ [VTok T_RPAREN]))); [vm_compute; reflexivity| |].
    + cbn [rule]. change (alts [?a; ?b]) with (IAlt a (IAlt b IFail)). yes. change (seqs [IT T_ARRAY; ?c; ?a; ?b]) with (ISeq (IT T_ARRAY) (ISeq c (ISeq a b))).
      apply takes_T, takes_T. apply (takes_seq rs _ _ (innerText comma l) [T_RPAREN] r vs [VTok T_RPAREN]); [exact T|apply takes_tok].
    + cbn [readNode]. unfold arrayOf. rewrite upTo_app, EV. reflexivity.
Qed.
Lemma array_good : forall short comma l ds, (forall n, In n l -> goodEntry n) -> (comma = true -> l <> []) -> Forall goodPart ds ->
  Good 20 (aText short comma l ++ dimsText ds) (apply (EArray short comma l) (dimSteps ds)) false.
Proof.
  intros short comma l ds G C GD. apply good_takes; [lia|split; [destruct short; discriminate|destruct short; cbn; tauto]|]. intros r ST.
  exists (VEx (EArray short comma l) :: dimVals ds). split; [|change (ntOf 20) with n_varExpression; cbn [readNode]; apply modified_dims].
  change (ntOf 20) with n_varExpression. cbn [rule alts].
  do 6 (apply takes_alt_r; [destruct short; vm_compute; reflexivity|]). apply takes_alt_l; [destruct short; vm_compute; reflexivity|]. cbn [seqs].
  apply takes_cons; [now apply takes_array|]. apply takes_indices; [exact GD|neq].
Qed.
End Atoms3.
