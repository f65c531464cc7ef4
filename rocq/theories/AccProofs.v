(** Proofs about AccModel.v. *)
From Coq Require Import List Bool Arith String Ascii Lia.
Import ListNotations.
From Verif Require Import AccModel AccSpec.
Open Scope nat_scope.

Lemma pick_in pl d : forall l seen, In d (pick pl l seen) -> In d l /\ valid pl d = true /\ foreign d = false.
Proof.
  induction l as [|x r IH]; intros seen H; cbn [pick] in H; [destruct H|].
  assert (H1 : forall s, In d ((if valid pl x then [x] else []) ++ pick pl r s) -> foreign x = false ->
                         In d (x :: r) /\ valid pl d = true /\ foreign d = false).
  { intros s H1 Hf. apply in_app_or in H1. destruct H1 as [H1|H1].
    - destruct (valid pl x) eqn:E; [|destruct H1]. destruct H1 as [<-|[]]. repeat split; auto. now left.
    - destruct (IH s H1) as (A & B & C). repeat split; auto. now right. }
  assert (H2 : forall s, In d (pick pl r s) -> In d (x :: r) /\ valid pl d = true /\ foreign d = false).
  { intros s H2. destruct (IH s H2) as (A & B & C). repeat split; auto. now right. }
  destruct (isInstance x) eqn:Ei.
  - destruct (foreign x) eqn:Ef; [exact (H2 _ H)|].
    destruct (existsb (String.eqb (declName x)) seen); [exact (H2 _ H)|exact (H1 _ H eq_refl)].
  - apply (H1 _ H). destruct x as [| |c m|[ | | | | ]]; try reflexivity; discriminate Ei.
Qed.

Lemma pick_other pl d : isInstance d = false -> valid pl d = true -> forall l seen, In d l -> In d (pick pl l seen).
Proof.
  intros Hi Hv. induction l as [|x r IH]; intros seen H; [destruct H|]. cbn [pick]. destruct H as [->|H].
  - rewrite Hi, Hv. now left.
  - destruct (isInstance x); [destruct (foreign x); [now apply IH|]; destruct (existsb _ seen); [now apply IH|]|];
      apply in_or_app; right; now apply IH.
Qed.

Lemma pick_only pl d : isInstance d = true -> valid pl d = true -> foreign d = false ->
  forall l seen, In d l -> (forall d', In d' l -> isInstance d' = true -> declName d' = declName d -> foreign d' = true \/ d' = d) ->
  ~ In (declName d) seen -> In d (pick pl l seen).
Proof.
  intros Hi Hv Hf. induction l as [|x r IH]; intros seen H Hu Hs; [destruct H|].
  assert (Hd : declName x = declName d -> isInstance x = true -> foreign x = false -> x = d).
  { intros E1 E2 E3. destruct (Hu x (or_introl eq_refl) E2 E1) as [A|A]; [rewrite E3 in A; discriminate A|exact A]. }
  assert (Hu' : forall d', In d' r -> isInstance d' = true -> declName d' = declName d -> foreign d' = true \/ d' = d).
  { intros d' Hd'. apply Hu. now right. }
  cbn [pick].
  destruct (string_dec (declName x) (declName d)) as [E|E].
  - destruct (isInstance x) eqn:Eix.
    + destruct (foreign x) eqn:Efx.
      * apply IH; auto. destruct H as [->|H]; [rewrite Hf in Efx; discriminate Efx|exact H].
      * assert (x = d) as -> by (apply Hd; auto).
        destruct (existsb (String.eqb (declName d)) seen) eqn:Es.
        -- apply existsb_exists in Es. destruct Es as (y & Hy & Ey). apply String.eqb_eq in Ey. subst y. contradiction.
        -- rewrite Hv. now left.
    + apply in_or_app. right. apply IH; auto. destruct H as [->|H]; [rewrite Hi in Eix; discriminate Eix|exact H].
  - assert (Hr : In d r) by (destruct H as [->|H]; [congruence|exact H]).
    destruct (isInstance x).
    + destruct (foreign x); [now apply IH|]. destruct (existsb _ seen); [now apply IH|].
      apply in_or_app. right. apply IH; auto. intros [A|A]; auto.
    + apply in_or_app. right. now apply IH.
Qed.

Lemma chain_in p : forall f c d, In d (chain f p c) ->
  exists o m, d = DMember o m /\ belongs p o m /\ (o = c \/ above p c o).
Proof.
  induction f as [|f IH]; intros c d H; [destruct H|]. cbn [chain] in H.
  destruct (nth_error (classes p) c) as [k|] eqn:Ek; [|destruct H].
  apply in_app_or in H. destruct H as [H|H].
  - apply in_map_iff in H. destruct H as (m & <- & Hm). exists c, m. repeat split; auto. exists k. auto.
  - destruct (c_base k) as [b|] eqn:Eb; [|destruct H].
    assert (Hb : base p c b) by (exists k; auto).
    destruct (IH _ _ H) as (o & m & -> & Ho & Hc). exists o, m. repeat split; auto. right.
    destruct Hc as [->|Hc]; [now apply ab_base|now apply (ab_more p c b)].
Qed.

Lemma chain_all p o m : (forall c b, base p c b -> b < c) -> belongs p o m ->
  forall f c, c < f -> o = c \/ above p c o -> In (DMember o m) (chain f p c).
Proof.
  intros Hl (ko & Hko & Hm). induction f as [|f IH]; intros c Hc Ho; [lia|]. cbn [chain].
  destruct Ho as [<-|Ho].
  - rewrite Hko. apply in_or_app. left. now apply in_map.
  - assert (Hb : exists b, base p c b /\ (o = b \/ above p b o)).
    { destruct Ho as [c b Hb|c b a Hb Ha]; exists b; split; auto. }
    destruct Hb as (b & Hb & Hob). pose proof (Hl _ _ Hb) as Hlt. destruct Hb as (k & Hk & Hkb).
    rewrite Hk, Hkb. apply in_or_app. right. apply IH; [lia|exact Hob].
Qed.

(** ** Looking members up *)
Definition sort_dec : forall a b : sort, {a = b} + {a <> b}.
Proof. decide equality. Defined.

Lemma own_dec p c s n : (exists m, belongs p c m /\ named s n m) \/ (forall m, belongs p c m -> ~ named s n m).
Proof.
  destruct (nth_error (classes p) c) as [k|] eqn:Ek.
  - assert (H : (exists m, In m (c_members k) /\ named s n m) \/ (forall m, In m (c_members k) -> ~ named s n m)).
    { induction (c_members k) as [|x r IH]; [right; intros ? []|].
      destruct IH as [(m & Hm & Hn)|IH]; [left; exists m; split; [now right|exact Hn]|].
      destruct (sort_dec (sortOf (m_what x)) s) as [E1|E1];
        [destruct (string_dec (m_name x) n) as [E2|E2]|].
      + left. exists x. split; [now left|now split].
      + right. intros m [<-|Hm] [A B]; [contradiction|now apply (IH m Hm)].
      + right. intros m [<-|Hm] [A B]; [contradiction|now apply (IH m Hm)]. }
    destruct H as [(m & Hm & Hn)|H].
    + left. exists m. split; [exists k; auto|exact Hn].
    + right. intros m (k' & Hk' & Hm). rewrite Ek in Hk'. injection Hk' as <-. now apply H.
  - right. intros m (k & Hk & _). rewrite Ek in Hk. discriminate Hk.
Qed.

Lemma finds_above p from o m : lawful p -> belongs p o m -> m_access m <> Priv ->
  forall c, o = c \/ above p c o ->
  exists o' m', finds p from c (sortOf (m_what m)) (m_name m) o' m' /\ named (sortOf (m_what m)) (m_name m) m' /\
                isStatic (m_what m') = isStatic (m_what m).
Proof.
  intros Hl Hb Ha c [<-|Hc].
  - exists o, m. split; [|split; [now split|reflexivity]]. apply f_here; auto; [now split|]. intros E. contradiction.
  - induction Hc as [c b Hcb|c b a Hcb Hc IH].
    + destruct (own_dec p c (sortOf (m_what m)) (m_name m)) as [(m' & Hm' & Hn)|Hno].
      * destruct (l_override p Hl c b m' m Hm' (ab_base p c b Hcb) Hb Ha (proj1 Hn) (proj2 Hn)) as [Es Hp].
        exists c, m'. split; [|now split]. apply f_here; auto. intros E. contradiction.
      * exists b, m. split; [|split; [now split|reflexivity]]. apply (f_up p from c b); auto.
        apply f_here; auto; [now split|]. intros E. contradiction.
    + destruct (own_dec p c (sortOf (m_what m)) (m_name m)) as [(m' & Hm' & Hn)|Hno].
      * destruct (l_override p Hl c a m' m Hm' (ab_more p c b a Hcb Hc) Hb Ha (proj1 Hn) (proj2 Hn)) as [Es Hp].
        exists c, m'. split; [|now split]. apply f_here; auto. intros E. contradiction.
      * destruct (IH Hb) as (o' & m' & Hf & Hr). exists o', m'. split; [|exact Hr]. now apply (f_up p from c b).
Qed.

Lemma finds_usable p o m c : lawful p -> belongs p o m -> (o = c \/ above p c o) ->
  (m_access m = Priv -> o = c) ->
  exists o' m', finds p c c (sortOf (m_what m)) (m_name m) o' m' /\ named (sortOf (m_what m)) (m_name m) m' /\
                isStatic (m_what m') = isStatic (m_what m) /\ (o = c -> o' = o /\ m' = m).
Proof.
  intros Hl Hb Ho Hp.
  assert (D : o = c \/ o <> c) by (destruct (Nat.eq_dec o c); auto).
  destruct D as [->|D].
  - exists c, m. split; [|split; [now split|split; [reflexivity|auto]]]. apply f_here; auto. now split.
  - destruct (finds_above p c o m Hl Hb) with (c := c) as (o' & m' & Hf & Hn & Es); auto.
    exists o', m'. split; [exact Hf|]. split; [exact Hn|]. split; [exact Es|]. intros E. contradiction.
Qed.

(** ** The text of what is offered *)
Lemma offered_in p pl d : In d (offered p pl) -> In d (visible p pl) /\ valid pl d = true /\ foreign d = false.
Proof. intros H. destruct (pick_in _ _ _ _ H) as (A & B). split; [now apply in_rev|exact B]. Qed.

Lemma visible_cases p pl d : In d (visible p pl) ->
  (exists v, In v (locals pl) /\ d = DVar (fst v) (snd v)) \/
  (exists n, d = DOuter n) \/
  (exists o m c, d = DMember o m /\ belongs p o m /\ classOf (where_ pl) = Some c /\ (o = c \/ above p c o)) \/
  (exists g, In g (globals p) /\ d = DGlobal g).
Proof.
  unfold visible. intros H. apply in_app_or in H. destruct H as [H|H].
  { apply in_map_iff in H. destruct H as (v & <- & Hv). left. eauto. }
  apply in_app_or in H. destruct H as [H|H].
  { apply in_map_iff in H. destruct H as (n & <- & _). right. left. eauto. }
  apply in_app_or in H. destruct H as [H|H].
  { right. right. left. destruct (where_ pl) as [c st|c st|]; [| |destruct H].
    all: destruct (chain_in _ _ _ _ H) as (o & m & -> & Hb & Ho); exists o, m, c; auto. }
  apply in_map_iff in H. destruct H as (g & <- & Hg). right. right. right. eauto.
Qed.

Lemma app_nil s : (s ++ "")%string = s.
Proof. induction s as [|a s IH]; cbn; [reflexivity|now rewrite IH]. Qed.

Lemma text_means p pl d : lawful p -> In d (offered p pl) -> regular pl d ->
  exists d', denotes p pl (written (where_ pl) d) d' /\ alike d d' /\
             (forall o m c, d = DMember o m -> classOf (where_ pl) = Some c -> o = c -> d' = d).
Proof.
  intros Hl Ho Hr. destruct (offered_in _ _ _ Ho) as (Hin & Hv & Hf).
  destruct (visible_cases _ _ _ Hin) as [(v & Hv1 & ->)|[(n & ->)|[(o & m & c & -> & Hb & Hc & Hoc)|(g & Hg & ->)]]].
  - exists (DVar (fst v) (snd v)). split; [|split; [constructor|intros; congruence]].
    unfold written. cbn [isFunction declarationName declName].
    rewrite app_nil. apply n_variable. now destruct v.
  - discriminate Hf.
  - cbn [regular] in Hr. destruct (where_ pl) as [c' st|c' st|] eqn:Ew; [|now destruct Hr|now destruct Hr].
    cbn [classOf] in Hc. injection Hc as ->. destruct Hr as (Hst & Hty).
    assert (Hp : m_access m = Priv -> o = c).
    { intros E. cbn [valid] in Hv. rewrite E, Ew in Hv. now apply Nat.eqb_eq. }
    destruct (finds_usable p o m c Hl Hb Hoc Hp) as (o' & m' & Hfi & (Hs & Hn) & Es & Hown).
    exists (DMember o' m').
    split; [|split; [apply a_member; congruence|]].
    2:{ intros o1 m1 c1 E Hc1 E1. rewrite ?Ew in Hc1. cbn [classOf] in Hc1.
        assert (E2 : o = c) by congruence. destruct (Hown E2) as (-> & ->). reflexivity. }
    assert (Hcl : classOf (where_ pl) = Some c) by now rewrite Ew.
    assert (Hth : st = false -> hasThis (where_ pl)) by (rewrite Ew; auto).
    assert (Eass : forall a b : string, (("self::" ++ a) ++ b)%string = ("self::" ++ a ++ b)%string) by reflexivity.
    assert (Eass' : forall a b : string, (("$this->" ++ a) ++ b)%string = ("$this->" ++ a ++ b)%string) by reflexivity.
    unfold written. cbn [declarationName declName isFunction].
    destruct (m_what m) as [[|] ty| |[|]] eqn:Em; cbn [sortOf isStatic constType andb negb] in *.
    + assert (Ht : constType (Property true ty) = false) by (destruct ty as [| | |[|]]; cbn; try reflexivity; destruct Hty; congruence).
      cbn [constType] in Ht. rewrite Ht. cbn [negb]. rewrite app_nil.
      destruct (m_what m') as [st' ty'| |] eqn:Em'; try discriminate Hs. cbn [isStatic] in Es. subst st'.
      now apply (n_selfProperty p pl c (m_name m) o' m' ty').
    + rewrite app_nil. destruct (m_what m') as [st' ty'| |] eqn:Em'; try discriminate Hs. cbn [isStatic] in Es. subst st'.
      apply (n_thisProperty p pl c (m_name m) o' m' ty'); auto. apply Hth. now destruct Hst.
    + rewrite app_nil. now apply (n_selfConstant p pl c (m_name m) o' m').
    + rewrite Eass. apply (n_selfMethod p pl c (m_name m) o' m'); auto. left.
      destruct (m_what m') as [| |st']; try discriminate Hs. cbn [isStatic] in Es. now subst st'.
    + rewrite Eass'. apply (n_thisMethod p pl c (m_name m) o' m'); auto. apply Hth. now destruct Hst.
  - exists (DGlobal g). split; [|split; [constructor|intros; congruence]].
    unfold written.
    destruct g as [n|n|n|n|n]; cbn [isFunction declarationName declName]; rewrite ?app_nil.
    + now apply n_function.
    + now apply n_constant.
    + now apply n_class.
    + now apply n_super.
    + discriminate Hf.
Qed.

(** ** One text, one meaning *)
Fixpoint marks (s : string) : string :=
  match s with
  | EmptyString => EmptyString
  | String a r => if wordChar a then marks r else String a (marks r)
  end.
Lemma marks_app a b : marks (a ++ b) = (marks a ++ marks b)%string.
Proof. induction a as [|x a IH]; cbn; [reflexivity|]. destruct (wordChar x); cbn; now rewrite IH. Qed.
Lemma word_char a : wordChar a = true <-> isWord a.
Proof.
  split; intros H.
  - destruct a as [[] [] [] [] [] [] [] []]; try (vm_compute in H; discriminate H); vm_compute; tauto.
  - unfold isWord in H. assert (F : forallb wordChar alphabet = true) by (vm_compute; reflexivity).
    rewrite forallb_forall in F. now apply F.
Qed.
Lemma marks_name n : isName n -> marks n = EmptyString.
Proof.
  intros (_ & H). induction n as [|x n IH]; [reflexivity|]. cbn in *. inversion H as [|? ? H1 H2]; subst.
  rewrite (proj2 (word_char x) H1). now apply IH.
Qed.
Lemma len_app a b : String.length (a ++ b) = String.length a + String.length b.
Proof. induction a as [|x a IH]; cbn; [reflexivity|now rewrite IH]. Qed.
Lemma app_cancel a b c : (a ++ c)%string = (b ++ c)%string -> a = b.
Proof.
  revert b. induction a as [|x a IH]; intros b H.
  - destruct b as [|y b]; [reflexivity|]. exfalso. apply (f_equal String.length) in H. cbn in H.
    rewrite len_app in H. lia.
  - destruct b as [|y b].
    + exfalso. apply (f_equal String.length) in H. cbn in H. rewrite len_app in H. lia.
    + cbn in H. injection H as -> H. f_equal. now apply IH.
Qed.
Lemma app_inj_l a b c : (a ++ b)%string = (a ++ c)%string -> b = c.
Proof. induction a as [|x a IH]; cbn; intros H; [exact H|]. injection H as H. now apply IH. Qed.

Lemma finds_named p from c s n o m : finds p from c s n o m -> named s n m /\ belongs p o m.
Proof. intros H. induction H as [c s n m Hb Hn _|c b s n o m _ _ _ IH]; auto. Qed.

Lemma finds_det p from : lawful p -> forall c s n o m, finds p from c s n o m -> forall o' m', finds p from c s n o' m' ->
  o = o' /\ m = m'.
Proof.
  intros Hl c s n o m H. induction H as [c s n m Hb Hn Ha|c b s n o m Hno Hcb Hf IH]; intros o' m' H'.
  - destruct H' as [c s n m' Hb' Hn' _|c b s n o' m' Hno _ _].
    + split; [reflexivity|]. destruct Hn as [A B], Hn' as [A' B']. apply (l_once p Hl c m m'); auto; congruence.
    + exfalso. now apply (Hno m).
  - destruct H' as [c s n m' Hb' Hn' _|c b' s n o' m' _ Hcb' Hf'].
    + exfalso. now apply (Hno m').
    + assert (b' = b) as ->.
      { destruct Hcb as (k & Hk & Hkb), Hcb' as (k' & Hk' & Hkb'). congruence. }
      now apply IH.
Qed.

Inductive form := FDollar | FCall | FBare | FThis | FThisCall | FSelfCall | FSelfDollar | FSelf.
Definition pre (f : form) : string :=
  match f with FDollar => "$" | FCall => "" | FBare => "" | FThis => "$this->" | FThisCall => "$this->"
             | FSelfCall => "self::" | FSelfDollar => "self::$" | FSelf => "self::" end.
Definition post (f : form) : string := match f with FCall | FThisCall | FSelfCall => "()" | _ => "" end.

(** What a text of each form names. *)
Definition names (p : program) (pl : place) (f : form) (n : string) (d : decl) : Prop :=
  match f with
  | FDollar => (exists s, In (n, s) (locals pl) /\ d = DVar n s) \/ (In (GSuper n) (globals p) /\ d = DGlobal (GSuper n))
  | FCall => d = DGlobal (GFunction n)
  | FBare => d = DGlobal (GConstant n) \/ d = DGlobal (GClass n)
  | FThis => hasThis (where_ pl) /\ exists c o m, classOf (where_ pl) = Some c /\ finds p c c SProperty n o m /\ d = DMember o m
  | FSelfDollar => exists c o m, classOf (where_ pl) = Some c /\ finds p c c SProperty n o m /\ d = DMember o m
  | FThisCall => hasThis (where_ pl) /\ exists c o m, classOf (where_ pl) = Some c /\ finds p c c SMethod n o m /\ d = DMember o m
  | FSelfCall => exists c o m, classOf (where_ pl) = Some c /\ finds p c c SMethod n o m /\ d = DMember o m
  | FSelf => exists c o m, classOf (where_ pl) = Some c /\ finds p c c SConstant n o m /\ d = DMember o m
  end.

Lemma denotes_form p pl t d : goodNames p pl -> denotes p pl t d ->
  exists f n, t = (pre f ++ n ++ post f)%string /\ isName n /\ names p pl f n d.
Proof.
  intros (G1 & G2 & G3) H.
  assert (G4 : forall c s n o m, finds p c c s n o m -> isName n).
  { intros c s n o m Hf. destruct (finds_named _ _ _ _ _ _ _ Hf) as ((_ & <-) & Hb). now apply (G1 o). }
  destruct H as [n s H|n H|n H|n H|n H|c n o m ty A H B C|c n o m A H B|c n o m H B C|c n o m ty H B C|c n o m H B].
  - exists FDollar, n. cbn [pre post]. rewrite app_nil. split; [reflexivity|]. split; [now apply (G3 (n, s))|]. left. eauto.
  - exists FDollar, n. cbn [pre post]. rewrite app_nil. split; [reflexivity|]. split; [now apply (G2 _ H)|]. right. auto.
  - exists FCall, n. split; [reflexivity|]. split; [now apply (G2 _ H)|]. reflexivity.
  - exists FBare, n. cbn [pre post]. rewrite app_nil. split; [reflexivity|]. split; [now apply (G2 _ H)|]. now left.
  - exists FBare, n. cbn [pre post]. rewrite app_nil. split; [reflexivity|]. split; [now apply (G2 _ H)|]. now right.
  - exists FThis, n. cbn [pre post]. rewrite app_nil. split; [reflexivity|]. split; [now apply (G4 c SProperty n o m)|]. split; [exact A|]. exists c, o, m. auto.
  - exists FThisCall, n. split; [reflexivity|]. split; [now apply (G4 c SMethod n o m)|]. split; [exact A|]. exists c, o, m. auto.
  - exists FSelfCall, n. split; [reflexivity|]. split; [now apply (G4 c SMethod n o m)|]. exists c, o, m. auto.
  - exists FSelfDollar, n. cbn [pre post]. rewrite app_nil. split; [reflexivity|]. split; [now apply (G4 c SProperty n o m)|]. exists c, o, m. auto.
  - exists FSelf, n. cbn [pre post]. rewrite app_nil. split; [reflexivity|]. split; [now apply (G4 c SConstant n o m)|]. exists c, o, m. auto.
Qed.

Lemma form_inj f f' n n' : isName n -> isName n' -> (pre f ++ n ++ post f)%string = (pre f' ++ n' ++ post f')%string ->
  f = f' /\ n = n'.
Proof.
  intros Hn Hn' H.
  assert (E : f = f').
  { assert (E : marks (pre f ++ n ++ post f) = marks (pre f' ++ n' ++ post f')) by now rewrite H.
    rewrite !marks_app, !(marks_name _ Hn), !(marks_name _ Hn') in E.
    destruct f, f'; cbn in E; try reflexivity; discriminate E. }
  subst f'. split; [reflexivity|]. apply app_inj_l in H. now apply app_cancel in H.
Qed.

Lemma one_meaning p pl t d d' : lawful p -> goodNames p pl -> denotes p pl t d -> denotes p pl t d' ->
  alike d d' \/ classAndConstant d d'.
Proof.
  intros Hl Hg H H'.
  destruct (denotes_form _ _ _ _ Hg H) as (f & n & E & Hn & Hd).
  destruct (denotes_form _ _ _ _ Hg H') as (f' & n' & E' & Hn' & Hd').
  rewrite E in E'. destruct (form_inj _ _ _ _ Hn Hn' E') as (<- & <-).
  assert (Hm : forall s, (exists c o m, classOf (where_ pl) = Some c /\ finds p c c s n o m /\ d = DMember o m) ->
                         (exists c o m, classOf (where_ pl) = Some c /\ finds p c c s n o m /\ d' = DMember o m) -> alike d d').
  { intros s (c & o & m & Hc & Hf & ->) (c' & o' & m' & Hc' & Hf' & ->).
    assert (c' = c) as -> by congruence. destruct (finds_det p c Hl _ _ _ _ _ Hf _ _ Hf') as (-> & ->). constructor. }
  destruct f; cbn [names] in Hd, Hd'; try (left; now apply (Hm _ Hd Hd'));
    try (left; destruct Hd as (_ & Hd), Hd' as (_ & Hd'); now apply (Hm _ Hd Hd')).
  - destruct Hg as (_ & _ & G3). destruct Hd as [(s & A & ->)|(A & ->)], Hd' as [(s' & A' & ->)|(A' & ->)].
    + left. constructor.
    + exfalso. destruct (G3 _ A) as (_ & X). exact (X A').
    + exfalso. destruct (G3 _ A') as (_ & X). exact (X A).
    + left. constructor.
  - subst. left. constructor.
  - destruct Hd as [-> | ->], Hd' as [-> | ->]; [left; constructor| | |left; constructor]; right; exists n; auto.
Qed.

(** ** Where the text is wrong *)
(** The form of the text written for a member. *)
Definition formOf (s : spot) (w : what) : form :=
  match s, w with
  | InMethod _ _, Method st => if st then FSelfCall else FThisCall
  | InMethod _ _, Constant => FSelf
  | InMethod _ _, Property false _ => FThis
  | InMethod _ _, Property true ty => if constType w then FSelf else FSelfDollar
  | _, Method _ => FCall
  | _, Constant => FBare
  | _, Property false _ => FBare
  | _, Property true ty => if constType w then FBare else FDollar
  end.
Lemma written_form s o m : written s (DMember o m) = (pre (formOf s (m_what m)) ++ m_name m ++ post (formOf s (m_what m)))%string.
Proof.
  unfold written. cbn [declarationName declName isFunction formOf].
  destruct s; destruct (m_what m) as [[|] ty| |[|]]; cbn [isStatic andb negb formOf];
    try (destruct (constType (Property true ty)); cbn [negb]); rewrite ?app_nil; reflexivity.
Qed.
Lemma written_names p pl o m d' : goodNames p pl -> belongs p o m -> denotes p pl (written (where_ pl) (DMember o m)) d' ->
  names p pl (formOf (where_ pl) (m_what m)) (m_name m) d'.
Proof.
  intros Hg Hb H. rewrite written_form in H. destruct (denotes_form _ _ _ _ Hg H) as (f & n & E & Hn & Hd).
  destruct (form_inj _ _ _ _ (proj1 Hg _ _ Hb) Hn E) as (E1 & E2). rewrite <- E1, <- E2 in Hd. exact Hd.
Qed.
Lemma offered_belongs p pl o m : In (DMember o m) (offered p pl) -> belongs p o m.
Proof.
  intros H. destruct (offered_in _ _ _ H) as (Hin & _).
  destruct (visible_cases _ _ _ Hin) as [(v & _ & E)|[(n & E)|[(o' & m' & c' & E & Hb & _)|(g & _ & E)]]]; congruence.
Qed.

Lemma static_no_meaning p pl c o m d' : goodNames p pl -> where_ pl = InMethod c true -> In (DMember o m) (offered p pl) ->
  isStatic (m_what m) = false -> ~ denotes p pl (written (where_ pl) (DMember o m)) d'.
Proof.
  intros Hg Hw Ho Hs H. pose proof (written_names p pl o m d' Hg (offered_belongs _ _ _ _ Ho) H) as Hn.
  assert (Ht : hasThis (where_ pl) -> False) by (rewrite Hw; cbn; discriminate).
  rewrite Hw in Hn. cbn [formOf] in Hn.
  destruct (m_what m) as [[|] ty| |[|]]; cbn [isStatic] in Hs; try discriminate Hs; cbn [names] in Hn; destruct Hn as (Hn & _); auto.
Qed.

Lemma closure_other_meaning p pl c st o m d' : goodNames p pl -> where_ pl = InClosure c st -> In (DMember o m) (offered p pl) ->
  denotes p pl (written (where_ pl) (DMember o m)) d' -> ~ alike (DMember o m) d'.
Proof.
  intros Hg Hw Ho H Ha. pose proof (written_names p pl o m d' Hg (offered_belongs _ _ _ _ Ho) H) as Hn.
  rewrite Hw in Hn. cbn [formOf] in Hn. inversion Ha; subst; clear Ha.
  all: destruct (m_what m) as [[|] ty| |[|]]; try (destruct (constType (Property true ty))); cbn [names] in Hn;
    repeat match goal with
           | X : _ \/ _ |- _ => destruct X
           | X : exists _, _ |- _ => destruct X
           | X : _ /\ _ |- _ => destruct X
           end; discriminate.
Qed.

Lemma constant_other_meaning p pl c st o m ty d' : goodNames p pl -> where_ pl = InMethod c st -> In (DMember o m) (offered p pl) ->
  m_what m = Property true ty -> ty = OfConstant \/ ty = Named true ->
  denotes p pl (written (where_ pl) (DMember o m)) d' -> ~ alike (DMember o m) d'.
Proof.
  intros Hg Hw Ho Hm Hty H Ha.
  assert (Hc : constType (m_what m) = true) by (rewrite Hm; destruct Hty as [-> | ->]; reflexivity). pose proof (written_names p pl o m d' Hg (offered_belongs _ _ _ _ Ho) H) as Hn.
  rewrite Hw in Hn. rewrite Hm in Hn, Hc. cbn [formOf] in Hn. rewrite Hc in Hn. cbn [names] in Hn.
  destruct Hn as (c' & o' & m' & _ & Hf & ->). destruct (finds_named _ _ _ _ _ _ _ Hf) as ((Hs & _) & _).
  inversion Ha; subst; [rewrite Hm in Hs; discriminate Hs|].
  match goal with X : sortOf (m_what m) = _ |- _ => rewrite Hm, Hs in X; discriminate X end.
Qed.

(** ** What is offered *)
Lemma usable_offered p pl c st d : lawful p -> where_ pl = InMethod c st -> usable p pl d ->
  isFunction d = true \/ onlyOne p pl d -> In d (offered p pl).
Proof.
  intros Hl Hw Hu Hk. destruct d as [| |o m|]; try contradiction. destruct Hu as (Hb & c' & Hc & Ho).
  rewrite Hw in Hc. cbn [classOf] in Hc. injection Hc as <-.
  assert (Hin : In (DMember o m) (visible p pl)).
  { unfold visible. rewrite Hw. apply in_or_app. right. apply in_or_app. right. apply in_or_app. left.
    apply chain_all; [apply (l_order p Hl)|exact Hb| |tauto].
    assert (Hx : exists k, nth_error (classes p) c = Some k).
    { destruct Ho as [<-|(Ho & _)]; [destruct Hb as (k & Hk1 & _); eauto|].
      destruct Ho as [c b (k & Hk1 & _)|c b a (k & Hk1 & _) _]; eauto. }
    destruct Hx as (k & Hk1). apply nth_error_Some. congruence. }
  assert (Hv : valid pl (DMember o m) = true).
  { cbn [valid]. destruct (m_access m) eqn:Ea; auto. rewrite Hw. apply Nat.eqb_eq.
    destruct Ho as [->|(_ & X)]; [reflexivity|congruence]. }
  unfold offered. destruct (isInstance (DMember o m)) eqn:Ei.
  - destruct Hk as [Hk|Hk]; [cbn in Ei, Hk; destruct (m_what m); congruence|].
    apply pick_only; auto; [now apply in_rev in Hin|]. intros d' Hd'. apply Hk. now apply in_rev.
  - apply pick_other; auto. now apply in_rev in Hin.
Qed.

Lemma offered_usable p pl c st o m : where_ pl = InMethod c st -> In (DMember o m) (offered p pl) -> usable p pl (DMember o m).
Proof.
  intros Hw H. destruct (offered_in _ _ _ H) as (Hin & Hv & _).
  destruct (visible_cases _ _ _ Hin) as [(v & _ & E)|[(n & E)|[(o' & m' & c' & E & Hb & Hc & Ho)|(g & _ & E)]]]; try discriminate E.
  injection E as <- <-. split; [exact Hb|]. exists c'. split; [exact Hc|]. rewrite Hw in Hc. injection Hc as <-.
  cbn [valid] in Hv. rewrite Hw in Hv. destruct Ho as [Ho|Ho]; [now left|].
  destruct (m_access m) eqn:Ea; [right; split; [exact Ho|congruence]|right; split; [exact Ho|congruence]|].
  left. now apply Nat.eqb_eq in Hv.
Qed.

(** ** The line *)
Lemma dropWord_app w l : forallb wordChar w = true -> dropWord (w ++ l) = dropWord l.
Proof.
  induction w as [|a w IH]; cbn; intros H; [reflexivity|]. apply andb_prop in H. destruct H as (H1 & H2).
  rewrite H1. now apply IH.
Qed.
Definition endsWord (l : list ascii) : bool := match l with a :: _ => wordChar a | [] => false end.
Lemma dropWord_stop l : endsWord l = false -> dropWord l = l.
Proof. destruct l as [|a l]; cbn; [reflexivity|]. now intros ->. Qed.
Lemma dropWord_id l : endsWord (dropWord l) = false.
Proof. induction l as [|a l IH]; cbn; [reflexivity|]. destruct (wordChar a) eqn:E; [exact IH|exact E]. Qed.
Lemma forallb_rev (f : ascii -> bool) l : forallb f (rev l) = forallb f l.
Proof.
  induction l as [|a l IH]; cbn; [reflexivity|]. rewrite forallb_app, IH. cbn. rewrite andb_true_r. apply andb_comm.
Qed.

Lemma line_replaced a typed w b text :
  goesOn typed = true -> forallb wordChar w = true -> endsWord b = false ->
  (hd_error typed = Some dollar \/
   forall a' x, a = a' ++ [x] -> wordChar x = false /\ x <> dollar) ->
  accepted (rev (a ++ typed)) (w ++ b) text = a ++ text ++ b.
Proof.
  intros Hg Hw Hb Ha. unfold accepted, outside. rewrite (dropWord_app w b Hw), (dropWord_stop b Hb), rev_app_distr.
  destruct typed as [|t r].
  - cbn [rev app]. destruct Ha as [Ha|Ha]; [discriminate Ha|].
    destruct (rev a) as [|x ra] eqn:Er.
    + cbn. assert (a = []) as -> by (rewrite <- (rev_involutive a), Er; reflexivity). reflexivity.
    + assert (Ea : a = rev ra ++ [x]) by (rewrite <- (rev_involutive a), Er; reflexivity).
      destruct (Ha _ _ Ea) as (Hx1 & Hx2). cbn [dropWord]. rewrite Hx1.
      destruct (Ascii.eqb x dollar) eqn:Ex; [apply Ascii.eqb_eq in Ex; contradiction|].
      rewrite <- Er, rev_involutive. reflexivity.
  - cbn [goesOn] in Hg. cbn [rev]. destruct (Ascii.eqb t dollar) eqn:Et.
    + apply Ascii.eqb_eq in Et. subst t. rewrite <- app_assoc, dropWord_app by now rewrite forallb_rev.
      cbn [app dropWord]. replace (wordChar dollar) with false by reflexivity. rewrite Ascii.eqb_refl, rev_involutive. reflexivity.
    + destruct Ha as [Ha|Ha]; [cbn in Ha; injection Ha as ->; now rewrite Ascii.eqb_refl in Et|].
      cbn [forallb] in Hg. change (rev r ++ [t]) with (rev (t :: r)). rewrite dropWord_app by now rewrite forallb_rev.
      destruct (rev a) as [|x ra] eqn:Er.
      * cbn. assert (a = []) as -> by (rewrite <- (rev_involutive a), Er; reflexivity). reflexivity.
      * assert (Ea : a = rev ra ++ [x]) by (rewrite <- (rev_involutive a), Er; reflexivity).
        destruct (Ha _ _ Ea) as (Hx1 & Hx2). cbn [dropWord]. rewrite Hx1.
        destruct (Ascii.eqb x dollar) eqn:Ex; [apply Ascii.eqb_eq in Ex; contradiction|].
        rewrite <- Er, rev_involutive. reflexivity.
Qed.

Lemma words_chars l : forallb wordChar l = true <-> Forall isWord l.
Proof.
  rewrite forallb_forall, Forall_forall. split; intros H a Ha; apply word_char; now apply H.
Qed.
Lemma goesOn_typing l : goesOn l = true <-> typing l.
Proof.
  split.
  - destruct l as [|a r]; [left; constructor|]. cbn [goesOn]. destruct (Ascii.eqb a dollar) eqn:E; intros H.
    + apply Ascii.eqb_eq in E. right. exists r. split; [now rewrite E|now apply words_chars].
    + left. now apply words_chars.
  - intros [H|(r & -> & H)].
    + destruct l as [|a r]; [reflexivity|]. cbn [goesOn]. destruct (Ascii.eqb a dollar) eqn:E; [|now apply words_chars].
      apply Ascii.eqb_eq in E. subst a. inversion H as [|? ? H1 _]; subst. apply word_char in H1. discriminate H1.
    + cbn [goesOn]. change (Ascii.eqb "$"%char dollar) with true. now apply words_chars.
Qed.
Lemma line_replaced2 a typed w b text :
  typing typed -> Forall isWord w -> (forall x r, b = x :: r -> ~ isWord x) ->
  (hd_error typed = Some "$"%char \/ forall a' x, a = a' ++ [x] -> ~ isWord x /\ x <> "$"%char) ->
  accepted (rev (a ++ typed)) (w ++ b) text = a ++ text ++ b.
Proof.
  intros Ht Hw Hb Ha. apply line_replaced.
  - now apply goesOn_typing.
  - now apply words_chars.
  - destruct b as [|x r]; [reflexivity|]. cbn. destruct (wordChar x) eqn:E; [|reflexivity]. exfalso. apply (Hb x r eq_refl). now apply word_char.
  - destruct Ha as [Ha|Ha]; [now left|right]. intros a' x E. destruct (Ha a' x E) as (H1 & H2). split; [|exact H2].
    destruct (wordChar x) eqn:Ex; [|reflexivity]. exfalso. now apply H1, word_char.
Qed.
