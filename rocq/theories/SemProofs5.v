(** Proofs for C69, fifth part: the theorems and the counterexamples. *)
From Coq Require Import List String Relations Lia.
From Verif Require Import Chars SemModel SemSpec SemProofs SemProofs2 SemProofs3 SemProofs4.
Import ListNotations.
Open Scope nat_scope.

Section Theorems.
Variable cc : CharClass.
Notation loc := (loc cc).
Notation among := (among cc).
Notation BreaksHere := (BreaksHere cc).

Lemma exact_here pl n w p : exactly w -> (In (w, p) (loc pl n) <-> BreaksHere pl n w p).
Proof.
  intros X. rewrite loc_cases. split.
  - intros [(q & l & -> & N & -> & ->)|[(f & args & a & z & y & c & -> & -> & V & U & -> & ->)|[(ps & r & b & -> & H)|[(k & q & x & l & -> & H)|(l & u & -> & I & G & H)]]]].
    + now constructor.
    + destruct X.
    + destruct H as [(q & t & e & I & D & [[V ->]|(_ & _ & _ & ->)])|[(a & q & q' & c & E & V & -> & ->)|(h & f & rr & _ & _ & _ & _ & ->)]].
      * now apply b_vdef with q t e.
      * destruct X.
      * now apply b_notlast with a q' c.
      * destruct X.
    + destruct H as [(R & -> & ->)|[(h & vs & t & f & rr & _ & _ & _ & _ & _ & ->)|(cn & e & I & [[-> ->]|[E ->]])]].
      * now constructor.
      * destruct X.
      * now apply b_trait with cn e.
      * now apply b_class with cn e.
    + destruct H as [(-> & -> & N & A & x & E)|[(-> & -> & T & H)|(-> & _)]].
      * now apply b_noeffect with x.
      * now apply b_taken.
      * destruct X.
  - intros B. destruct B as [pl ps r b q p t e I V D| |pl ps r b a q q' c E V| |pl p l N|pl k p x l R| | | |pl l u x I N G A E|pl l u I G T H| | |pl p x l cp cn e I|pl k p x l cp cn e I E]; try destruct X.
    + right; right; left. exists ps, r, b. split; [reflexivity|]. left. exists q, t, e. auto 6.
    + right; right; left. exists ps, r, b. split; [reflexivity|]. right; left. exists a, q, q', c. auto.
    + left. exists p, l. auto.
    + right; right; right; left. exists k, p, x, l. auto.
    + do 4 right. exists l, u. split; [reflexivity|split; [exact I|split; [exact G|]]]. left. eauto 8.
    + do 4 right. exists l, u. split; [reflexivity|split; [exact I|split; [exact G|]]]. right; left. auto.
    + right; right; right; left. exists KTrait, p, x, l. split; [reflexivity|]. right; right. exists cn, e. auto.
    + right; right; right; left. exists k, p, x, l. split; [reflexivity|]. right; right. exists cn, e. auto.
Qed.

Theorem reported file w p : exactly w -> (In (w, p) (check cc true false file) <-> Breaks cc file w p).
Proof.
  intros X. rewrite check_pieces. unfold Breaks. split; intros (pl & n & H & B); exists pl, n; (split; [exact H|]).
  - now apply exact_here.
  - now apply exact_here.
Qed.

Lemma plain_bad l p : plainHint cc l ->
  ((exists f rr, In (HName p f rr) l /\ ~ among f builtin /\ among (List.last rr f) reserved) <-> BadHint cc l p).
Proof.
  intros [->|(h & -> & P)].
  - split; [intros (f & rr & [] & _)|intros (f & rr & E & _); discriminate].
  - split.
    + intros (f & rr & [->|[]] & N & R). exists f, rr. auto.
    + intros (f & rr & E & R & H). injection E as ->. exists f, rr. split; [now left|split; [|exact R]].
      destruct H as [H|H]; [|exact H]. now apply (P p f rr).
Qed.
Lemma plain_class l : plainHint cc l ->
  ((exists p f r, In (HName p f r) l /\ ~ among f builtin) <-> (l <> [] /\ forall h, In h l -> ClassHint cc h)).
Proof.
  intros [->|(h & -> & P)].
  - split; [intros (p & f & rr & [] & _)|intros [N _]; congruence].
  - split.
    + intros (p & f & rr & [->|[]] & N). split; [discriminate|]. intros h [<-|[]]. exists p, f, rr. auto.
    + intros [_ H]. destruct (H h (or_introl eq_refl)) as (p & f & rr & -> & N). exists p, f, rr. split; [now left|].
      destruct N as [N|N]; [|exact N]. now apply (P p f rr).
Qed.

Lemma plain_here pl n w p : PlainHere cc n -> w <> PositionalAfterUnpacked -> (In (w, p) (loc pl n) <-> BreaksHere pl n w p).
Proof.
  intros P W.
  assert (K : exactly w \/ w = ClassDefault \/ w = ReservedHint \/ w = ReservedAlias) by (destruct w; cbn; auto; congruence).
  destruct K as [X|K]; [now apply exact_here|]. rewrite loc_cases. split.
  - intros [(q & l & -> & N & -> & ->)|[(f & args & a & z & y & c & -> & -> & V & U & -> & ->)|[(ps & r & b & -> & H)|[(k & q & x & l & -> & H)|(l & u & -> & I & G & H)]]]].
    + now constructor.
    + congruence.
    + inversion P as [| | |? ? ? Pr Pp| | | ]; subst.
      destruct H as [(q & t & e & I & D & [[V ->]|(V & C & Nn & ->)])|[(a & q & q' & c & E & V & -> & ->)|(h & f & rr & I & -> & N & R & ->)]].
      * now apply b_vdef with q t e.
      * apply hasClass_spec in C. apply (plain_class _ (Pp q I)) in C. destruct C as [C1 C2]. now apply b_cdef with q t e.
      * now apply b_notlast with a q' c.
      * destruct I as [I|(q & I & J)].
        -- apply b_hret. apply plain_bad; [exact Pr|]. eauto.
        -- apply b_hparam with q; [exact I|]. apply plain_bad; [now apply Pp|]. eauto.
    + inversion P as [| | | |? ? ? ? Pp| | ]; subst.
      destruct H as [(R & -> & ->)|[(h & vs & t & f & rr & I & J & -> & N & R & ->)|(cn & e & I & [[-> ->]|[E ->]])]].
      * now constructor.
      * apply b_hprop with h vs; [exact I|]. apply plain_bad; [now apply (Pp h vs)|]. eauto.
      * now apply b_trait with cn e.
      * now apply b_class with cn e.
    + destruct H as [(-> & -> & N & A & x & E)|[(-> & -> & T & H)|(-> & T & a & A & R)]].
      * now apply b_noeffect with x.
      * now apply b_taken.
      * now apply b_alias with u a.
  - intros B. assert (B' := B).
    destruct B as [pl ps r b q p t e I V D|pl ps r b q p t e I V D Hn Hc Nt|pl ps r b a q q' c E V| |pl p l N|pl k p x l R|pl ps r b q p I Hb|pl ps r b p Hb|pl k p x l h vs q I Hb|pl l u x I N G A E|pl l u I G T H|pl l u p a I G T A R|pl l u g p a I G J R|pl p x l cp cn e I|pl k p x l cp cn e I E];
      try (destruct K as [K|[K|K]]; discriminate).
    + inversion P as [| | |? ? ? Pr Pp| | | ]; subst. right; right; left. exists ps, r, b. split; [reflexivity|]. left. exists q, t, e.
      split; [exact I|split; [exact D|right]]. split; [exact V|split; [|auto]]. apply hasClass_spec. apply plain_class; auto.
    + inversion P as [| | |? ? ? Pr Pp| | | ]; subst. right; right; left. exists ps, r, b. split; [reflexivity|]. right; right.
      apply plain_bad in Hb; [|now apply Pp]. destruct Hb as (f & rr & J & N & R). exists (HName p f rr), f, rr. split; [right; eauto|auto].
    + inversion P as [| | |? ? ? Pr Pp| | | ]; subst. right; right; left. exists ps, r, b. split; [reflexivity|]. right; right.
      apply plain_bad in Hb; [|exact Pr]. destruct Hb as (f & rr & J & N & R). exists (HName p f rr), f, rr. auto 8.
    + inversion P as [| | | |? ? ? ? Pp| | ]; subst. right; right; right; left. exists k, p, x, l. split; [reflexivity|]. right; left.
      apply plain_bad in Hb; [|now apply (Pp h vs)]. destruct Hb as (f & rr & J & N & R). exists h, vs, (HName q f rr), f, rr. auto 8.
    + do 4 right. exists l, u. split; [reflexivity|split; [exact I|split; [exact G|]]]. right; right. eauto.
    + inversion P as [| | | | | |? Pp]; subst. rewrite (Pp u I) in G. discriminate.
Qed.

Theorem reported_plain file w p : Plain cc file -> w <> PositionalAfterUnpacked ->
  (In (w, p) (check cc true false file) <-> Breaks cc file w p).
Proof.
  intros P W. rewrite check_pieces. unfold Breaks. split; intros (pl & n & H & B); exists pl, n; (split; [exact H|]).
  - apply plain_here; auto. now apply (P pl n).
  - apply plain_here; auto. now apply (P pl n).
Qed.

(** Of the positional arguments behind an unpacked one, the first is directly behind an unpacked
    one. *)
Lemma first_positional (l : list (arg nd)) x b y c a :
  l = a ++ x :: b ++ y :: c -> aUnpacked x = true -> aUnpacked y = false ->
  exists a' z y' c', l = a' ++ z :: y' :: c' /\ aUnpacked z = true /\ aUnpacked y' = false.
Proof.
  intros -> U V. revert x a U. induction b as [|u b IH]; intros x a U.
  - exists a, x, y, c. auto.
  - destruct (aUnpacked u) eqn:Uu.
    + destruct (IH u (a ++ [x]) Uu) as (a' & z & y' & c' & E & H). exists a', z, y', c'. split; [|exact H].
      rewrite <- E. now rewrite <- app_assoc.
    + exists a, x, u, (b ++ y :: c). auto.
Qed.

Theorem positional file :
  (forall p, In (PositionalAfterUnpacked, p) (check cc true false file) -> Breaks cc file PositionalAfterUnpacked p) /\
  (forall pl f args p, Has file pl (Call f args) -> BreaksHere pl (Call f args) PositionalAfterUnpacked p ->
     exists a, In a args /\ In (PositionalAfterUnpacked, aPos a) (check cc true false file)).
Proof.
  split.
  - intros p H. apply check_pieces in H. destruct H as (pl & n & H & L). exists pl, n. split; [exact H|].
    apply loc_cases in L.
    destruct L as [(q & l & -> & N & Y & ->)|[(f & args & a & z & y & c & -> & -> & V & U & _ & ->)|[(ps & r & b & -> & L)|[(k & q & x & l & -> & L)|(l & u & -> & I & G & L)]]]].
    + discriminate.
    + now apply b_positional with a z [] c.
    + destruct L as [(q & t & e & I & D & [[V E]|(V & C & Nn & E)])|[(a & q & q' & c & E & V & E2 & _)|(h & ff & rr & I & _ & N & R & E)]]; discriminate.
    + destruct L as [(R & E & _)|[(h & vs & t & ff & rr & I & J & _ & N & R & E)|(cn & e & I & [[_ E]|[_ E]])]]; discriminate.
    + destruct L as [(E & _)|[(E & _)|(E & _)]]; discriminate.
  - intros pl f args p H B. inversion B as [| | |? ? ? a x b y c E U V| | | | | | | | | | | ]; subst.
    destruct (first_positional _ x b y c a eq_refl U V) as (a' & z & y' & c' & E & Uz & Uy).
    exists y'. rewrite E. split; [apply in_or_app; right; right; now left|].
    apply check_pieces. exists pl, (Call f (a ++ x :: b ++ y :: c)). split; [exact H|]. apply loc_cases. right; left.
    exists f, (a ++ x :: b ++ y :: c), a', z, y', c'. auto 8.
Qed.
End Theorems.

(** ** Counterexamples *)

Notation A := asciiCC.
Definition name1 (p : nat) (s : string) : hint := HName p (str s) [].
Definition prm (p : nat) (h : list hint) (v : bool) (d : option (nat * qstring * nd)) : param nd :=
  {| pPos := p; pHint := h; pVariadic := v; pDefault := d |}.
Definition val : nd := Parts [].
Definition ar (p : nat) (u : bool) : arg nd := {| aPos := p; aUnpacked := u; aExpr := val |}.
(** function f(Foo|int $x = 5) {} *)
Definition unionDefault : list top := [TNode (Fun [prm 3 [name1 3 "Foo"; name1 5 "int"] false (Some (8, str "5", val))] [] (Some val))].
(** function f(): int|null {} *)
Definition unionNull : list top := [TNode (Fun [] [name1 6 "int"; name1 8 "null"] (Some val))].
(** function f(int\A $x = 5) {} *)
Definition prefixed : list top := [TNode (Fun [prm 3 [HName 3 (str "int") [str "A"]] false (Some (8, str "5", val))] [] (Some val))].
(** use A\{B as string}; *)
Definition grouped : list top := [TNode (Use [{| uPos := 1; uParts := [str "A"]; uAlias := None; uGroup := Some [Some (6, str "string")]; uTaken := false |}])].
(** f(...$a, 1, 2); *)
Definition twoPositional : list top := [TNode (Call [] [ar 2 true; ar 5 false; ar 7 false])].
(** foreach ($a as $b[f(...$c, 1)]) {} *)
Definition twice : list top := [TNode (Foreach val (Parts [Call [] [ar 9 true; ar 12 false]]) None val)].
(** class self {} *)
Definition selfClass : list top := [TNode (Class KClass 1 (str "self") [])].

Lemma Has_single n pl m : Has [TNode n] pl m -> clos_refl_trans_1n _ Part (AtTop, n) (pl, m).
Proof.
  intros (r & S & C). inversion S as [x ? y E F|x ? y E F|parts l ? I N In_|l ? I In_]; subst.
  - exfalso. destruct F as (a & parts & b & -> & _). apply (f_equal (@List.length _)) in E.
    rewrite !app_length in E. cbn in E. lia.
  - destruct x as [|t x]; injection E; intros; subst; [exact C|now destruct x].
  - destruct I as [I|[]]; discriminate.
  - destruct I as [I|[]]; discriminate.
Qed.
Lemma val_ends pl r : clos_refl_trans_1n _ Part (pl, val) r -> r = (pl, val).
Proof.
  intros C. inversion C as [|z ? P C']; subst; [reflexivity|]. destruct z as [pz z]. unfold val in P. inversion P; subst. match goal with H : In _ [] |- _ => destruct H end.
Qed.
Lemma Has_here n : Has [TNode n] AtTop n.
Proof.
  exists (AtTop, n). split; [|constructor]. apply (st_top _ [] n []); [reflexivity|]. intros (a & p & b & E & _). now destruct a.
Qed.

Lemma unionDefault_refuted :
  In (ClassDefault, 8) (check A true false unionDefault) /\ ~ Breaks A unionDefault ClassDefault 8.
Proof.
  split; [vm_compute; auto|]. intros (pl & n & H & B). apply Has_single in H.
  assert (E : n = Fun [prm 3 [name1 3 "Foo"; name1 5 "int"] false (Some (8, str "5", val))] [] (Some val) \/ n = val).
  { inversion H as [|[pz z] ? P C]; subst; [auto|]. right.
    inversion P as [| | | |? ? ? ? q p t e I D|? ? ? ?| | | | | | | ]; subst.
    - destruct I as [<-|[]]. injection D as <- <- <-. apply val_ends in C. congruence.
    - apply val_ends in C. congruence. }
  destruct E as [->| ->]; [|inversion B].
  inversion B as [|? ? ? ? q p t e I V D Hn Hc Nt| | | | | | | | | | | | | ]; subst.
  destruct I as [<-|[]]. destruct (Hc (name1 5 "int") (or_intror (or_introl eq_refl))) as (p' & f & r & E & N).
  injection E as <- <- <-. destruct N as [N|N]; [congruence|]. apply N. exists "int"%string. split; [cbn; auto|vm_compute; reflexivity].
Qed.
Lemma unionNull_refuted :
  In (ReservedHint, 8) (check A true false unionNull) /\ ~ Breaks A unionNull ReservedHint 8.
Proof.
  split; [vm_compute; auto|]. intros (pl & n & H & B). apply Has_single in H.
  assert (E : n = Fun [] [name1 6 "int"; name1 8 "null"] (Some val) \/ n = val).
  { inversion H as [|[pz z] ? P C]; subst; [auto|]. right.
    inversion P as [| | | |? ? ? ? q p t e I D|? ? ? ?| | | | | | | ]; subst.
    - destruct I.
    - apply val_ends in C. congruence. }
  destruct E as [->| ->]; [|inversion B].
  inversion B as [| | | | | |? ? ? ? q p I Hb|? ? ? ? p Hb| | | | | | | ]; subst.
  - destruct I.
  - destruct Hb as (f & r & E & _). discriminate.
Qed.
Lemma prefixed_refuted :
  Breaks A prefixed ClassDefault 8 /\ check A true false prefixed = [].
Proof.
  split; [|vm_compute; reflexivity]. eexists AtTop, _. split; [apply Has_here|].
  apply b_cdef with (prm 3 [HName 3 (str "int") [str "A"]] false (Some (8, str "5", val))) (str "5") val; try reflexivity.
  - now left.
  - discriminate.
  - intros h [<-|[]]. exists 3, (str "int"), [str "A"]. split; [reflexivity|left; discriminate].
Qed.
Lemma grouped_refuted : Breaks A grouped ReservedAlias 6 /\ check A true false grouped = [].
Proof.
  split; [|vm_compute; reflexivity]. eexists AtTop, _. split; [apply Has_here|].
  eapply b_inner; [now left|reflexivity|now left|]. exists "string"%string. split; [now left|vm_compute; reflexivity].
Qed.
Lemma second_refuted : Breaks A twoPositional PositionalAfterUnpacked 7 /\ ~ In (PositionalAfterUnpacked, 7) (check A true false twoPositional).
Proof.
  split.
  - eexists AtTop, _. split; [apply Has_here|]. apply b_positional with (a := []) (x := ar 2 true) (b := [ar 5 false]) (y := ar 7 false) (c := []); reflexivity.
  - vm_compute. intros [H|[]]. discriminate.
Qed.

(** function f(Foo $x = 5) {} *)
Definition oneDefault : list top := [TNode (Fun [prm 3 [name1 3 "Foo"] false (Some (6, str "5", val))] [] (Some val))].
Lemma oneDefault_plain : Plain A oneDefault.
Proof.
  intros pl n H. apply Has_single in H.
  inversion H as [|[pz z] ? P C]; subst.
  - constructor; [now left|]. intros q [<-|[]]. right. exists (name1 3 "Foo"). split; [reflexivity|].
    intros p f r E N. injection E as <- <- <-. congruence.
  - inversion P as [| | | |? ? ? ? q p t e I D|? ? ? ?| | | | | | | ]; subst.
    + destruct I as [<-|[]]. injection D as <- <- <-. apply val_ends in C. injection C as -> ->. constructor.
    + apply val_ends in C. injection C as -> ->. constructor.
Qed.
