(** Proofs for C69, fourth part: each problem and its rule. *)
From Coq Require Import List String Relations Lia.
From Verif Require Import Chars SemModel SemSpec SemProofs SemProofs2 SemProofs3.
Import ListNotations.
Open Scope nat_scope.

Section Each.
Variable cc : CharClass.
Notation BreaksHere := (BreaksHere cc).
Notation loc := (loc cc).
Notation among := (among cc).

Lemma orb_or a b : a || b = true <-> a = true \/ b = true. Proof. apply orb_true_iff. Qed.
Lemma reserved_spec s : isReservedClassName cc s = true <-> among s reserved.
Proof.
  unfold isReservedClassName, SemSpec.among, reserved, is. rewrite !orb_or. split.
  - intros H. repeat destruct H as [H|H]; (eexists; split; [|exact H]); cbn; auto 12.
  - intros (w & I & H). cbn [In] in I. repeat destruct I as [<-|I]; try (rewrite H; tauto). destruct I.
Qed.
Lemma reserved_spec' s : isReservedClassName cc s = false <-> ~ among s reserved.
Proof. rewrite <- reserved_spec. destruct (isReservedClassName cc s); split; congruence. Qed.
Lemma generic_spec s : isGenericClassTypehint cc s = false <-> among s builtin.
Proof.
  unfold isGenericClassTypehint, SemSpec.among, builtin, is. split.
  - intros H.
    repeat match type of H with (if ?b then _ else _) = false => let E := fresh in destruct b eqn:E; [eexists; split; [|exact E]; cbn; auto 12|] end.
    discriminate.
  - intros (w & I & H). cbn [In] in I. repeat destruct I as [<-|I]; try destruct I; rewrite H;
    repeat match goal with |- (if ?b then _ else _) = _ => destruct b; [reflexivity|] | |- _ => reflexivity end.
Qed.
Lemma generic_spec' s : isGenericClassTypehint cc s = true <-> ~ among s builtin.
Proof. rewrite <- generic_spec. destruct (isGenericClassTypehint cc s); split; congruence. Qed.

Notation nilR := (fun (_ : ctype) (_ : nd) => @nil (why * nat)).

Lemma In_params prev l x : In x (paramsRep cc nilR prev l) <->
  (exists q, In q l /\ In x (defaultRep cc q)) \/ (exists q h, In q l /\ In h (pHint q) /\ In x (hintRep cc h))
  \/ (exists p, x = (VariadicNotLast, p) /\ ((prev = Some (p, true) /\ l <> []) \/
        exists a q q' c, l = a ++ q :: q' :: c /\ pVariadic q = true /\ p = pPos q)).
Proof.
  revert prev; induction l as [|q l IH]; intros prev; cbn [paramsRep].
  - split; [intros []|]. intros [(q & [] & _)|[(q & h & [] & _)|(p & _ & [[_ N]|(a & q & q' & c & E & _)])]]; [congruence|now destruct a].
  - assert (Z : (match pDefault q with Some (_, _, _) => @nil (why * nat) | None => [] end) = []) by (now destruct (pDefault q) as [[[? ?] ?]|]).
    rewrite Z. cbn [app]. rewrite !in_app_iff, IH, in_flat_map. split.
    + intros [H|[(h & I & H)|[H|[(q' & I & H)|[(q' & h & I & J & H)|(p & -> & [[E N]|(a & q1 & q2 & c & -> & V & ->)])]]]]].
      * left. exists q. split; [now left|exact H].
      * right; left. exists q, h. split; [now left|auto].
      * unfold lastRep in H. destruct prev as [[p [|]]|]; [|destruct H..]. destruct H as [<-|[]].
        right; right. exists p. split; [reflexivity|left]. split; [reflexivity|discriminate].
      * left. exists q'. split; [now right|exact H].
      * right; left. exists q', h. split; [now right|auto].
      * right; right. injection E as <- V. exists (pPos q). split; [reflexivity|right].
        destruct l as [|q' l]; [congruence|]. exists [], q, q', l. auto.
      * right; right. exists (pPos q1). split; [reflexivity|right]. exists (q :: a), q1, q2, c. auto.
    + intros [(q' & [<-|I] & H)|[(q' & h & [<-|I] & J & H)|(p & -> & [[E N]|(a & q1 & q2 & c & E & V & ->)])]].
      * auto.
      * do 3 right. left. eauto.
      * right; left. eauto.
      * do 4 right. left. eauto 6.
      * right; right; left. rewrite E. now left.
      * do 5 right. exists (pPos q1). split; [reflexivity|].
        destruct a as [|q0 a]; injection E as -> ->.
        -- left. rewrite V. split; [reflexivity|discriminate].
        -- right. exists a, q1, q2, c. auto.
Qed.

Lemma In_args prev l x : In x (argsRep nilR TOther prev l) <->
  exists y, x = (PositionalAfterUnpacked, aPos y) /\ aUnpacked y = false /\
    ((exists p c, prev = Some (p, true) /\ l = y :: c) \/ exists a z c, l = a ++ z :: y :: c /\ aUnpacked z = true).
Proof.
  revert prev; induction l as [|u l IH]; intros prev; cbn [argsRep].
  - split; [intros []|]. intros (y & _ & _ & [(p & c & _ & E)|(a & z & c & E & _)]); [discriminate|now destruct a].
  - cbn [app]. rewrite in_app_iff, IH. split.
    + intros [H|(y & -> & U & [(p & c & E & ->)|(a & z & c & -> & V)])].
      * unfold argRep in H. destruct prev as [[p [|]]|]; [|destruct H..]. destruct (aUnpacked u) eqn:U; [destruct H|].
        destruct H as [<-|[]]. exists u. split; [reflexivity|split; [exact U|left; eauto]].
      * injection E as _ V. exists y. split; [reflexivity|split; [exact U|right]]. exists [], u, c. auto.
      * exists y. split; [reflexivity|split; [exact U|right]]. exists (u :: a), z, c. auto.
    + intros (y & -> & U & [(p & c & -> & E)|(a & z & c & E & V)]).
      * injection E as -> ->. left. unfold argRep. rewrite U. now left.
      * right. exists y. split; [reflexivity|split; [exact U|]]. destruct a as [|u' a]; injection E as -> ->.
        -- left. exists (aPos z), c. now rewrite V.
        -- right. eauto.
Qed.

Lemma In_default q x : In x (defaultRep cc q) <-> exists p t e, pDefault q = Some (p, t, e) /\
  ((pVariadic q = true /\ x = (VariadicDefault, p)) \/
   (pVariadic q = false /\ hasClassTypehint cc (pHint q) = true /\ eqsCI cc t (str "null") = false /\ x = (ClassDefault, p))).
Proof.
  unfold defaultRep, is. destruct (pDefault q) as [[[p t] e]|].
  - split.
    + intros H. exists p, t, e. split; [reflexivity|]. destruct (pVariadic q).
      * destruct H as [<-|[]]. auto.
      * right. destruct (hasClassTypehint cc (pHint q)); [|destruct H]. destruct (eqsCI cc t (str "null")); [destruct H|].
        destruct H as [<-|[]]. auto.
    + intros (p' & t' & e' & E & H). injection E as <- <- <-. destruct H as [[-> ->]|(-> & -> & -> & ->)]; now left.
  - split; [intros []|]. intros (p & t & e & E & _). discriminate.
Qed.
Lemma In_hint h x : In x (hintRep cc h) <-> exists p f r, h = HName p f r /\ ~ among f builtin /\ among (List.last r f) reserved /\ x = (ReservedHint, p).
Proof.
  destruct h as [| | |p f r]; cbn [hintRep].
  1-3: split; [intros []|intros (p & f & r & E & _); discriminate].
  destruct (isGenericClassTypehint cc f) eqn:G.
  - apply generic_spec' in G. destruct (isReservedClassName cc (List.last r f)) eqn:R.
    + apply reserved_spec in R. split.
      * intros [<-|[]]. exists p, f, r. auto.
      * intros (p' & f' & r' & E & _ & _ & ->). injection E as <- <- <-. now left.
    + apply reserved_spec' in R. split; [intros []|]. intros (p' & f' & r' & E & _ & N & _). injection E as <- <- <-. now apply R.
  - apply generic_spec in G. split; [intros []|]. intros (p' & f' & r' & E & N & _). injection E as <- <- <-. now apply N.
Qed.
Lemma In_use c u w p : In (w, p) (useRep cc c u) <-> uGroup u = None /\
  ((w = NoEffect /\ p = uPos u /\ isNamespace c = false /\ uAlias u = None /\ exists x, uParts u = [x]) \/
   (w = NameTaken /\ p = uPos u /\ uTaken u = true /\ (isNamespace c = true \/ uAlias u <> None \/ List.length (uParts u) <> 1)) \/
   (w = ReservedAlias /\ uTaken u = false /\ exists a, uAlias u = Some (p, a) /\ among a reserved)).
Proof.
  unfold useRep. destruct (uGroup u) as [g|]; [split; [intros []|intros [E _]; discriminate]|].
  destruct (negb (isNamespace c) && (match uAlias u with None => true | Some _ => false end) && (List.length (uParts u) =? 1)) eqn:Q.
  - rewrite !andb_true_iff, negb_true_iff, Nat.eqb_eq in Q. destruct Q as [[N A] L].
    destruct (uAlias u) as [|] eqn:EA; [discriminate|].
    assert (X : exists x, uParts u = [x]) by (destruct (uParts u) as [|x [|]]; try discriminate; eauto).
    split.
    + intros [E|[]]. injection E as <- <-. split; [reflexivity|left]. auto 6.
    + intros [_ [(-> & -> & _)|[(-> & -> & _ & [H|[H|H]])|(-> & _ & a & H & _)]]]; try congruence. now left.
  - assert (Q' : isNamespace c = true \/ uAlias u <> None \/ List.length (uParts u) <> 1).
    { rewrite !andb_false_iff, negb_false_iff, Nat.eqb_neq in Q. destruct Q as [[Q|Q]|Q]; auto.
      right; left. destruct (uAlias u); congruence. }
    destruct (uTaken u) eqn:T.
    + split.
      * intros [E|[]]. injection E as <- <-. split; [reflexivity|right; left]. auto.
      * intros [_ [(-> & -> & N & A & x & L)|[(-> & -> & _)|(-> & H & _)]]]; [|now left|discriminate].
        rewrite N, A, L in Q. discriminate.
    + split.
      * intros H. split; [reflexivity|]. destruct (uAlias u) as [[q a]|]; [|destruct H].
        destruct (isReservedClassName cc a) eqn:R; [|destruct H]. destruct H as [E|[]]. injection E as <- <-.
        right; right. split; [reflexivity|split; [reflexivity|]]. exists a. split; [reflexivity|now apply reserved_spec].
      * intros [_ [(-> & -> & N & A & x & L)|[(-> & -> & H & _)|(-> & _ & a & A & R)]]]; [|discriminate|].
        -- rewrite N, A, L in Q. discriminate.
        -- rewrite A. apply reserved_spec in R. rewrite R. now left.
Qed.
Lemma In_member k m x : In x (memberRep cc nilR k m) <->
  (exists h vs t, m = MProp h vs /\ In t h /\ In x (hintRep cc t)) \/
  (exists p n e, m = MConst p n e /\ ((k = KTrait /\ x = (TraitConst, p)) \/ (map (toLower cc) n = str "class" /\ x = (ConstClass, p)))).
Proof.
  destruct m as [f|h vs|p n e]; cbn [memberRep].
  - split; [intros []|]. intros [(h & vs & t & E & _)|(p & n & e & E & _)]; discriminate.
  - rewrite in_app_iff, !in_flat_map. split.
    + intros [(t & I & H)|(e & _ & [])]. left. eauto 8.
    + intros [(h' & vs' & t & E & I & H)|(p & n & e & E & _)]; [|discriminate]. injection E as <- <-. left. eauto.
  - rewrite app_nil_r. unfold constRep. rewrite in_app_iff. split.
    + intros [H|H]; right; exists p, n, e; (split; [reflexivity|]).
      * destruct k; [destruct H|destruct H|destruct H as [<-|[]]]. auto.
      * destruct (eqs (map (toLower cc) n) (str "class")) eqn:E; [|destruct H]. apply eqs_eq in E. destruct H as [<-|[]]. auto.
    + intros [(h & vs & t & E & _)|(p' & n' & e' & E & H)]; [discriminate|]. injection E as <- <- <-.
      destruct H as [[-> ->]|[N ->]]; [left; now left|]. right. apply eqs_eq in N. rewrite N. now left.
Qed.

Lemma hasClass_spec l : hasClassTypehint cc l = true <-> exists p f r, In (HName p f r) l /\ ~ among f builtin.
Proof.
  induction l as [|h l IH]; cbn [hasClassTypehint].
  - split; [discriminate|intros (p & f & r & [] & _)].
  - destruct (isClassTypehint cc h) eqn:E.
    + split; [intros _|reflexivity]. destruct h as [| | |p f r]; try discriminate. cbn in E. apply generic_spec' in E.
      exists p, f, r. split; [now left|exact E].
    + rewrite IH. split; intros (p & f & r & I & N); exists p, f, r; (split; [|exact N]).
      * now right.
      * destruct I as [->|I]; [|exact I]. cbn in E. apply generic_spec in E. now apply N in E.
Qed.

Lemma place_other pl : isOther (ct pl) = true <-> pl = InBody.
Proof. destruct pl; cbn; split; congruence. Qed.
Lemma place_ns pl : isNamespace (ct pl) = true <-> pl = InNs.
Proof. destruct pl; cbn; split; congruence. Qed.

(** The problems that are reported exactly where they belong, in every file. *)
Definition exactly (w : why) : Prop :=
  match w with ClassDefault | ReservedHint | ReservedAlias | PositionalAfterUnpacked => False | _ => True end.

(** What [loc] is, rule by rule. *)
Lemma loc_cases pl n w p : In (w, p) (loc pl n) <->
  (exists q l, n = Yield q l /\ pl <> InBody /\ w = YieldOutside /\ p = q) \/
  (exists f args a z y c, n = Call f args /\ args = a ++ z :: y :: c /\ aUnpacked z = true /\ aUnpacked y = false /\ w = PositionalAfterUnpacked /\ p = aPos y) \/
  (exists ps r b, n = Fun ps r b /\ (
     (exists q t e, In q ps /\ pDefault q = Some (p, t, e) /\
        ((pVariadic q = true /\ w = VariadicDefault) \/
         (pVariadic q = false /\ hasClassTypehint cc (pHint q) = true /\ eqsCI cc t (str "null") = false /\ w = ClassDefault))) \/
     (exists a q q' c, ps = a ++ q :: q' :: c /\ pVariadic q = true /\ w = VariadicNotLast /\ p = pPos q) \/
     (exists h f rr, (In h r \/ exists q, In q ps /\ In h (pHint q)) /\ h = HName p f rr /\ ~ among f builtin /\ among (List.last rr f) reserved /\ w = ReservedHint))) \/
  (exists k q x l, n = Class k q x l /\ (
     (among x reserved /\ w = ReservedName /\ p = q) \/
     (exists h vs t f rr, In (MProp h vs) l /\ In t h /\ t = HName p f rr /\ ~ among f builtin /\ among (List.last rr f) reserved /\ w = ReservedHint) \/
     (exists cn e, In (MConst p cn e) l /\ ((k = KTrait /\ w = TraitConst) \/ (map (toLower cc) cn = str "class" /\ w = ConstClass))))) \/
  (exists l u, n = Use l /\ In u l /\ uGroup u = None /\
     ((w = NoEffect /\ p = uPos u /\ pl <> InNs /\ uAlias u = None /\ exists x, uParts u = [x]) \/
     (w = NameTaken /\ p = uPos u /\ uTaken u = true /\ (pl = InNs \/ uAlias u <> None \/ List.length (uParts u) <> 1)) \/
     (w = ReservedAlias /\ uTaken u = false /\ exists a, uAlias u = Some (p, a) /\ among a reserved))).
Proof.
  destruct n as [l|q l|f args|ps r b|k q nm l|h v1 v2 b|l]; cbn [SemProofs2.loc].
  - split; [intros []|]. intros [(? & ? & E & _)|[(? & ? & ? & ? & ? & ? & E & _)|[(? & ? & ? & E & _)|[(? & ? & ? & ? & E & _)|(? & ? & E & _)]]]]; discriminate.
  - destruct (isOther (ct pl)) eqn:O.
    + apply place_other in O. split; [intros []|].
      intros [(? & ? & E & N & _)|[(? & ? & ? & ? & ? & ? & E & _)|[(? & ? & ? & E & _)|[(? & ? & ? & ? & E & _)|(? & ? & E & _)]]]]; try discriminate. congruence.
    + assert (N : pl <> InBody) by (intros ->; discriminate). split.
      * intros [E|[]]. injection E as <- <-. left. eauto 8.
      * intros [(? & ? & E & _ & -> & ->)|[(? & ? & ? & ? & ? & ? & E & _)|[(? & ? & ? & E & _)|[(? & ? & ? & ? & E & _)|(? & ? & E & _)]]]]; try discriminate.
        injection E as <- <-. now left.
  - rewrite In_args. split.
    + intros (y & E & U & [(p' & c & H & _)|(a & z & c & -> & V)]); [discriminate|]. injection E as -> ->.
      right; left. exists f, (a ++ z :: y :: c), a, z, y, c. auto 8.
    + intros [(? & ? & E & _)|[(f' & args' & a & z & y & c & E & E2 & V & U & -> & ->)|[(? & ? & ? & E & _)|[(? & ? & ? & ? & E & _)|(? & ? & E & _)]]]]; try discriminate.
      injection E as <- <-. exists y. split; [reflexivity|split; [exact U|right]]. eauto.
  - rewrite in_app_iff, In_params, in_flat_map. split.
    + intros H. right; right; left. exists ps, r, b. split; [reflexivity|].
      destruct H as [[(q & I & H)|[(q & h & I & J & H)|(p' & E & [[X _]|(a & q & q' & c & -> & V & ->)])]]|(h & J & H)].
      * apply In_default in H. destruct H as (p' & t & e & D & H). left. exists q, t, e.
        destruct H as [[V E]|(V & C & N & E)]; injection E as -> ->; auto 8.
      * apply In_hint in H. destruct H as (p' & f & rr & -> & N & R & E). injection E as -> ->. right; right.
        exists (HName p' f rr), f, rr. split; [right; eauto|auto].
      * discriminate.
      * injection E as -> ->. right; left. exists a, q, q', c. auto.
      * apply In_hint in H. destruct H as (p' & f & rr & -> & N & R & E). injection E as -> ->. right; right.
        exists (HName p' f rr), f, rr. split; [left; exact J|auto].
    + intros [(? & ? & E & _)|[(? & ? & ? & ? & ? & ? & E & _)|[(ps' & r' & b' & E & H)|[(? & ? & ? & ? & E & _)|(? & ? & E & _)]]]]; try discriminate.
      injection E as <- <- <-.
      destruct H as [(q & t & e & I & D & H)|[(a & q & q' & c & -> & V & -> & ->)|(h & f & rr & I & -> & N & R & ->)]].
      * left; left. exists q. split; [exact I|]. apply In_default. exists p, t, e. split; [exact D|].
        destruct H as [[V ->]|(V & C & Nn & ->)]; auto 6.
      * left; right; right. exists (pPos q). split; [reflexivity|right]. exists a, q, q', c. auto.
      * destruct I as [I|(q & I & J)].
        -- right. exists (HName p f rr). split; [exact I|]. apply In_hint. exists p, f, rr. auto.
        -- left; right; left. exists q, (HName p f rr). split; [exact I|split; [exact J|]]. apply In_hint. exists p, f, rr. auto.
  - rewrite in_app_iff, in_flat_map. split.
    + intros H. right; right; right; left. exists k, q, nm, l. split; [reflexivity|].
      destruct H as [(m & I & H)|H].
      * apply In_member in H. destruct H as [(h & vs & t & -> & J & H)|(p' & n & e & -> & H)].
        -- apply In_hint in H. destruct H as (p' & f & rr & -> & N & R & E). injection E as -> ->. right; left.
           exists h, vs, (HName p' f rr), f, rr. auto 8.
        -- right; right. destruct H as [[K E]|[K E]]; injection E as -> ->; exists n, e; auto 6.
      * left. destruct (isReservedClassName cc nm) eqn:R; [|destruct H]. apply reserved_spec in R. destruct H as [E|[]].
        injection E as <- <-. auto.
    + intros [(? & ? & E & _)|[(? & ? & ? & ? & ? & ? & E & _)|[(? & ? & ? & E & _)|[(k' & q' & x' & l' & E & H)|(? & ? & E & _)]]]]; try discriminate.
      injection E as <- <- <- <-.
      destruct H as [(R & -> & ->)|[(h & vs & t & f & rr & I & J & -> & N & R & ->)|(cn & e & I & H)]].
      * right. apply reserved_spec in R. rewrite R. now left.
      * left. exists (MProp h vs). split; [exact I|]. apply In_member. left. exists h, vs, (HName p f rr). split; [reflexivity|split; [exact J|]].
        apply In_hint. exists p, f, rr. auto.
      * left. exists (MConst p cn e). split; [exact I|]. apply In_member. right. exists p, cn, e. split; [reflexivity|].
        destruct H as [[K ->]|[K ->]]; auto.
  - split; [intros []|]. intros [(? & ? & E & _)|[(? & ? & ? & ? & ? & ? & E & _)|[(? & ? & ? & E & _)|[(? & ? & ? & ? & E & _)|(? & ? & E & _)]]]]; discriminate.
  - rewrite in_flat_map.
    assert (NS : isNamespace (ct pl) = false <-> pl <> InNs).
    { rewrite <- place_ns. destruct (isNamespace (ct pl)); split; congruence. }
    split.
    + intros (u & I & H). apply In_use in H. destruct H as [G H]. rewrite NS, place_ns in H.
      do 4 right. exists l, u. auto.
    + intros [(? & ? & E & _)|[(? & ? & ? & ? & ? & ? & E & _)|[(? & ? & ? & E & _)|[(? & ? & ? & ? & E & _)|(l' & u & E & I & G & H)]]]]; try discriminate.
      injection E as <-. exists u. split; [exact I|]. apply In_use. rewrite NS, place_ns. auto.
Qed.
End Each.
