(** Strings, arrays, new objects and the other constructs of PHP. *)
From Coq Require Import List Bool NArith ZArith Lia Arith.
From Verif Require Import Chars LexModel ParseModel ParseSpec ParseProofs PexSpec PexProofs PexProofs2 PexProofs4 PexPath PexPath2 PexAtoms.
Import ListNotations.
Open Scope nat_scope.

Section Atoms2.
Variable rs : Gen.
Context {Fs : Functions} {FsR : FunctionsRead rs}.
Notation Good := (Good rs).
Notation Reads := (Reads rs).
Notation Takes := (Takes rs).
Notation Refuses := (Refuses rs).
Notation goodPart := (goodPart rs).
Notation goodSeg := (goodSeg rs).
Notation goodVar := (goodVar rs).
Ltac yes := apply takes_alt_l; [vm_compute; reflexivity|].
Ltac no := apply takes_alt_r; [vm_compute; reflexivity|].
Ltac nav := first [yes|no; nav].
Ltac neq := eapply stop_neq; [eassumption|vm_compute; reflexivity].

Lemma takes_T : forall k b w r v, Takes b w r v -> Takes (ISeq (IT k) b) (k :: w) r (VTok k :: v).
Proof. intros k b w r v H. apply (takes_seq rs _ _ [k] w r [VTok k] v); [apply takes_tok|exact H]. Qed.
Lemma takes_cons : forall a b w1 w2 r v v2, Takes a w1 (w2 ++ r) [v] -> Takes b w2 r v2 -> Takes (ISeq a b) (w1 ++ w2) r (v :: v2).
Proof. intros a b w1 w2 r v v2 A B. exact (takes_seq rs a b w1 w2 r [v] v2 A B). Qed.
Lemma takes_0 : forall a b w r v, Takes a [] (w ++ r) [] -> Takes b w r v -> Takes (ISeq a b) w r v.
Proof. intros a b w r v A B. exact (takes_seq rs a b [] w r [] v A B). Qed.
Lemma takes_opt_no : forall a r, test a (at_ r) = false -> Takes (IAlt a (IAlt IEps IFail)) [] r [].
Proof. intros a r E. apply takes_alt_r; [exact E|]. apply takes_alt_l; [reflexivity|]. apply takes_eps. Qed.
Lemma good0 : forall w e, Good 0 w e false -> goodPart (w, e).
Proof. intros w e H. exact H. Qed.

(** ** What is in front of [=>] *)
Lemma up_print : forall w e iv r, starts 5 w -> Reads 5 w e iv r -> Reads 4 w e iv r.
Proof.
  intros w e iv r S0 G. apply reads_intro; [lia|apply starts_S, S0|]. intros s R V.
  destruct (G s R V) as (t & s' & RU & RD & PO).
  exists ([] ++ [t]), s'. split; [|split; [cbn [map app]; rewrite RD; reflexivity|exact PO]].
  cbn [rule ntOf nth ladder seqs alts]. eapply Runs_seq_ok; [|exact RU].
  apply Runs_opt_none; [discriminate|]. unfold enters.
  pose proof (starts_tok _ _ _ _ S0 R) as I0. cbn in I0.
  repeat (destruct I0 as [I0|I0]; [rewrite <- I0; vm_compute; reflexivity|]). contradiction.
Qed.
Lemma key_reads : forall w e iv r, Good 5 w e iv -> Reads 4 w e iv (T_DOUBLE_ARROW :: r) /\ Reads 0 w e iv (T_DOUBLE_ARROW :: r).
Proof.
  intros w e iv r [S0 G]. specialize (G (T_DOUBLE_ARROW :: r) ltac:(vm_compute; reflexivity)).
  pose proof (up_print _ _ _ _ S0 G) as G4. split; [exact G4|].
  assert (UP : forall l, In l [1; 2; 3] -> starts (S l) w -> Reads (S l) w e iv (T_DOUBLE_ARROW :: r) -> Reads l w e iv (T_DOUBLE_ARROW :: r)).
  { intros l HL SS H. assert (LL : listLevel l = true) by (cbn in HL; destruct HL as [<-|[<-|[<-|[]]]]; reflexivity).
    apply reads_intro; [cbn in HL; lia|now apply starts_S|]. intros s R V.
    destruct (H s R V) as (t & s' & RU & RD & PO). exists [t], s'. rewrite (rule_list l (or_introl LL)). split; [|split; [|exact PO]].
    - apply Runs_list_stop; [exact RU|]. rewrite (yytoken_hd _ _ (proj1 PO)). cbn in HL. destruct HL as [<-|[<-|[<-|[]]]]; reflexivity.
    - cbn [map]. rewrite RD, (readNode_list l _ _ LL). reflexivity. }
  pose proof (starts_S _ _ S0) as S4. pose proof (starts_S _ _ S4) as S3. pose proof (starts_S _ _ S3) as S2. pose proof (starts_S _ _ S2) as S1.
  pose proof (UP 3 ltac:(cbn; tauto) S4 G4) as G3. pose proof (UP 2 ltac:(cbn; tauto) S3 G3) as G2. pose proof (UP 1 ltac:(cbn; tauto) S2 G2) as G1.
  apply reads_intro; [lia|apply starts_S, S1|]. intros s R V. destruct (G1 s R V) as (t & s' & RU & RD & PO).
  exists [t], s'. split; [exact RU|]. split; [cbn [map]; rewrite RD; reflexivity|exact PO].
Qed.
Lemma reads_takes_N : forall l w e iv r, Reads l w e iv r -> Takes (IN (ntOf l)) w r [VEx e].
Proof.
  intros l w e iv r G s R V. destruct (G s R V) as (t & s' & RU & RD & P1 & P2 & P3 & P4 & _).
  exists [t], s'. split; [exact RU|]. split; [cbn [map]; now rewrite RD|]. repeat split; assumption.
Qed.

(** ** Strings with variables *)
Definition endsBit (r : list Tok) : Prop := hd T_EOF r <> T_OBJECT_OPERATOR /\ hd T_EOF r <> T_LBRACKET.
Lemma test_not : forall i ks r, (forall c a, i <> ICond c a) -> nullable i = false -> first i = setOf ks -> (forall k, In k ks -> hd T_EOF r <> k) -> test i (at_ r) = false.
Proof.
  intros i ks r NC N0 F H. replace (test i (at_ r)) with (enters i (at_ r)) by (destruct i; try reflexivity; exfalso; eapply NC; reflexivity).
  unfold enters. rewrite N0, F, mem_setOf, (yytoken_hd (at_ r) r eq_refl). cbn [orb].
  induction ks as [|k ks IH]; [reflexivity|]. cbn [existsb]. apply orb_false_iff. split; [apply teq_neq, H; now left|].
  clear F. assert (H' : forall k, In k ks -> hd T_EOF r <> k) by (intros k0 I0; apply H; now right). clear H IH.
  induction ks as [|k' ks IH]; [reflexivity|]. cbn [existsb]. apply orb_false_iff. split; [apply teq_neq, H'; now left|]. apply IH. intros k0 I0. apply H'. now right.
Qed.
Lemma takes_vid : forall r, Takes (IN n_variableIdentifier) [T_VARIABLE] r [VEx EVar].
Proof. intros r. eapply takes_N; [vm_compute; reflexivity|cbn [rule]; apply takes_tok|reflexivity]. Qed.
Lemma takes_bit : forall (b : bit ex) r, (forall a, b = BCurly a -> Good 0 (text a) a false) -> endsBit r -> Takes (IN n_encaps) (bitText text b) r [VBit b].
Proof.
  intros b r G [N1 N2]. destruct b as [| | |o|a].
  - apply (takes_N rs _ _ _ [VTok T_ENCAPSED_AND_WHITESPACE]); [vm_compute; reflexivity| |reflexivity]. cbn [rule alts]. nav. apply takes_tok.
  - apply (takes_N rs _ _ _ [VBit BPlain]); [vm_compute; reflexivity| |reflexivity]. cbn [rule alts]. nav.
    apply (takes_N rs _ _ _ [VEx EVar]); [vm_compute; reflexivity| |reflexivity]. cbn [rule alts]. nav. cbn [seqs].
    apply (takes_cons _ _ [T_VARIABLE] [] r); [apply takes_vid|].
    apply takes_alt_r; [eapply test_not with (ks := [T_OBJECT_OPERATOR]); [discriminate|vm_compute; reflexivity|vm_compute; reflexivity|intros k [<-|[]]; exact N1]|].
    apply takes_opt_no. eapply test_not with (ks := [T_LBRACKET]); [discriminate|vm_compute; reflexivity|vm_compute; reflexivity|intros k [<-|[]]; exact N2].
  - apply (takes_N rs _ _ _ [VBit BProp]); [vm_compute; reflexivity| |reflexivity]. cbn [rule alts]. nav.
    apply (takes_N rs _ _ _ [VEx EVar; VTok T_OBJECT_OPERATOR; VNone]); [vm_compute; reflexivity| |reflexivity]. cbn [rule alts]. nav. cbn [seqs bitText].
    apply (takes_cons _ _ [T_VARIABLE] [T_OBJECT_OPERATOR; T_STRING] r); [apply takes_vid|]. nav. apply takes_T. apply takes_ident.
  - apply (takes_N rs _ _ _ [VBit (BOffset o)]); [vm_compute; reflexivity| |reflexivity]. cbn [rule alts]. nav.
    apply (takes_N rs _ _ _ [VEx EVar; VTok T_LBRACKET; VOff o; VTok T_RBRACKET]); [vm_compute; reflexivity| |reflexivity]. cbn [rule alts]. nav. cbn [seqs bitText].
    apply (takes_cons _ _ [T_VARIABLE] [T_LBRACKET; offText o; T_RBRACKET] r); [apply takes_vid|]. nav. apply takes_T.
    apply (takes_cons _ _ [offText o] [T_RBRACKET] r); [|apply takes_tok].
    destruct o; cbn [offText].
    + apply (takes_N rs _ _ _ [VTok T_STRING]); [vm_compute; reflexivity| |reflexivity]. cbn [rule alts]. nav. apply takes_tok.
    + apply (takes_N rs _ _ _ [VTok T_NUM_STRING]); [vm_compute; reflexivity| |reflexivity]. cbn [rule alts]. nav. apply takes_tok.
    + apply (takes_N rs _ _ _ [VEx EVar]); [vm_compute; reflexivity| |reflexivity]. cbn [rule alts]. nav. apply takes_vid.
  - apply (takes_N rs _ _ _ [VBit (BCurly a)]); [vm_compute; reflexivity| |reflexivity]. cbn [rule alts]. nav.
    apply (takes_N rs _ _ _ [VTok T_CURLY_OPEN; VEx a; VTok T_RBRACE]); [vm_compute; reflexivity| |reflexivity]. cbn [rule alts]. nav. cbn [seqs bitText].
    apply takes_T. apply (takes_cons _ _ (text a) [T_RBRACE] r); [|apply takes_tok]. apply takes_expr; [apply G; reflexivity|vm_compute; reflexivity].
Qed.
Lemma bit_hd : forall (b : bit ex) r, endsBit (bitText text b ++ r).
Proof. intros [| | |o|a] r; split; discriminate. Qed.
Lemma takes_bits : forall (l : list (bit ex)) k r, (forall a, In (BCurly a) l -> Good 0 (text a) a false) -> In k [T_DOUBLE_QUOTE; T_END_HEREDOC; T_BACKTICK] ->
  Takes (IN n_encapsList) (flat_map (bitText text) l) (k :: r) [VBits l].
Proof.
  intros l k r G K. apply (takes_N rs _ _ _ (map VBit l)).
  - unfold enters. now replace (nullable (rule n_encapsList)) with true by (vm_compute; reflexivity).
  - cbn [rule]. induction l as [|b l IH].
    + apply takes_star_stop. cbn in K. destruct K as [<-|[<-|[<-|[]]]]; vm_compute; reflexivity.
    + cbn [flat_map map]. apply (takes_star_go rs _ (bitText text b) (flat_map (bitText text) l) (k :: r) [VBit b] (map VBit l)).
      * destruct b; vm_compute; reflexivity.
      * apply takes_bit; [intros a ->; apply G; now left|]. destruct l as [|b' l]; [cbn in K; destruct K as [<-|[<-|[<-|[]]]]; split; discriminate|].
        cbn [flat_map]. rewrite <- app_assoc. apply bit_hd.
      * apply IH. intros a I0. apply G. now right.
  - cbn [readNode]. replace (bitsOf (map VBit l)) with (Some l); [reflexivity|]. clear. induction l as [|b l IH]; [reflexivity|]. cbn [map bitsOf]. now rewrite <- IH.
Qed.
Lemma string_good : forall q (l : list (bit ex)), (forall a, In (BCurly a) l -> Good 0 (text a) a false) -> Good 21 (openTok q :: flat_map (bitText text) l ++ [closeTok q]) (EString q l) false.
Proof.
  intros q l G. apply good_takes; [lia|split; [discriminate|destruct q; cbn; tauto]|]. intros r ST. change (ntOf 21) with n_varExpressionNormal.
  destruct q; cbn [openTok closeTok].
  - exists [VEx (EString QDouble l)]. split; [|reflexivity]. apply takes_scalar; [vm_compute; reflexivity..|].
    apply (takes_N rs _ _ _ [VTok T_DOUBLE_QUOTE; VBits l; VTok T_DOUBLE_QUOTE]); [vm_compute; reflexivity| |reflexivity]. cbn [rule alts]. nav. cbn [seqs].
    apply takes_T. apply (takes_cons _ _ (flat_map (bitText text) l) [T_DOUBLE_QUOTE] r); [apply takes_bits; [exact G|cbn; tauto]|].
    apply (takes_T _ _ [] r []). apply takes_star_stop. replace (first (IN n_stringIndexSpecifier)) with (setOf [T_LBRACKET]) by (vm_compute; reflexivity).
    rewrite mem_setOf. cbn [existsb]. apply orb_false_iff. split; [|reflexivity]. apply teq_neq. neq.
  - exists [VEx (EString QHeredoc l)]. split; [|reflexivity]. apply takes_scalar; [vm_compute; reflexivity..|].
    apply (takes_N rs _ _ _ [VTok T_START_HEREDOC; VBits l; VTok T_END_HEREDOC]); [vm_compute; reflexivity| |reflexivity]. cbn [rule alts]. nav. cbn [seqs].
    apply takes_T. apply (takes_cons _ _ (flat_map (bitText text) l) [T_END_HEREDOC] r); [apply takes_bits; [exact G|cbn; tauto]|]. apply takes_tok.
  - exists [VTok T_BACKTICK; VBits l; VTok T_BACKTICK]. split; [|reflexivity]. cbn [rule alts]. nav. cbn [seqs].
    apply takes_T. apply (takes_cons _ _ (flat_map (bitText text) l) [T_BACKTICK] r); [apply takes_bits; [exact G|cbn; tauto]|]. apply takes_tok.
Qed.
End Atoms2.
