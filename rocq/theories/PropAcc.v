(** C78: choosing an offered declaration writes text that means it. *)
From Coq Require Import List Bool Arith String Ascii Lia.
Import ListNotations.
From Verif Require Import AccModel AccSpec AccProofs.
Open Scope nat_scope.

Theorem C78_text_means_partial : forall p pl d, lawful p -> In d (offered p pl) -> regular pl d ->
  exists d', denotes p pl (written (where_ pl) d) d' /\ alike d d' /\
             (forall o m c, d = DMember o m -> classOf (where_ pl) = Some c -> o = c -> d' = d).
Proof. exact text_means. Qed.
Print Assumptions C78_text_means_partial.

Theorem C78_one_meaning : forall p pl t d d', lawful p -> goodNames p pl -> denotes p pl t d -> denotes p pl t d' ->
  alike d d' \/ classAndConstant d d'.
Proof. exact one_meaning. Qed.
Print Assumptions C78_one_meaning.

Theorem C78_offered_partial : forall p pl c st d, lawful p -> where_ pl = InMethod c st -> usable p pl d ->
  isFunction d = true \/ onlyOne p pl d -> In d (offered p pl).
Proof. exact usable_offered. Qed.
Print Assumptions C78_offered_partial.

Theorem C78_only_usable : forall p pl c st o m, where_ pl = InMethod c st -> In (DMember o m) (offered p pl) ->
  usable p pl (DMember o m).
Proof. exact offered_usable. Qed.
Print Assumptions C78_only_usable.

(** [a ++ typed] stands left of the cursor, [w ++ b] right of it; [typed] and [w] are the word around the cursor. *)
Theorem C78_line : forall a typed w b text,
  typing typed -> Forall isWord w -> (forall x r, b = x :: r -> ~ isWord x) ->
  (hd_error typed = Some "$"%char \/ forall a' x, a = a' ++ [x] -> ~ isWord x /\ x <> "$"%char) ->
  accepted (rev (a ++ typed)) (w ++ b) text = a ++ text ++ b.
Proof. exact line_replaced2. Qed.
Print Assumptions C78_line.

(** The list stays open exactly while such a word is typed. *)
Theorem C78_typing : forall l, goesOn l = true <-> typing l.
Proof. exact goesOn_typing. Qed.
Print Assumptions C78_typing.

(** The wrong texts: wherever one of the cases arises. *)
Theorem C78_static_method_no_meaning : forall p pl c o m d', goodNames p pl -> where_ pl = InMethod c true ->
  In (DMember o m) (offered p pl) -> isStatic (m_what m) = false ->
  ~ denotes p pl (written (where_ pl) (DMember o m)) d'.
Proof. exact static_no_meaning. Qed.
Print Assumptions C78_static_method_no_meaning.

Theorem C78_closure_other_meaning : forall p pl c st o m d', goodNames p pl -> where_ pl = InClosure c st ->
  In (DMember o m) (offered p pl) ->
  denotes p pl (written (where_ pl) (DMember o m)) d' -> ~ alike (DMember o m) d'.
Proof. exact closure_other_meaning. Qed.
Print Assumptions C78_closure_other_meaning.

Theorem C78_constant_other_meaning : forall p pl c st o m ty d', goodNames p pl -> where_ pl = InMethod c st ->
  In (DMember o m) (offered p pl) -> m_what m = Property true ty -> ty = OfConstant \/ ty = Named true ->
  denotes p pl (written (where_ pl) (DMember o m)) d' -> ~ alike (DMember o m) d'.
Proof. exact constant_other_meaning. Qed.
Print Assumptions C78_constant_other_meaning.

(** ** A program
<<
class A { private $secret; protected $p; function bm() {} function m() {} }
class B extends A { const K = 1; static $d = self::K; static $s = 1; private $secret;
                    function m() { $v = 1; | }   static function sm() {} }
function f() {}   const M = 2;
>> *)
Definition mem n w a := {| m_name := n; m_what := w; m_access := a |}.
Definition secretA := mem "secret" (Property false Literal) Priv.
Definition pA := mem "p" (Property false Literal) Prot.
Definition bmA := mem "bm" (Method false) Pub.
Definition mA := mem "m" (Method false) Pub.
Definition kB := mem "K" Constant Pub.
Definition dB := mem "d" (Property true OfConstant) Pub.
Definition sB := mem "s" (Property true Literal) Pub.
Definition secretB := mem "secret" (Property false Literal) Priv.
Definition mB := mem "m" (Method false) Pub.
Definition smB := mem "sm" (Method true) Pub.
Definition classA := {| c_base := None; c_members := [secretA; pA; bmA; mA] |}.
Definition classB := {| c_base := Some 0; c_members := [kB; dB; sB; secretB; mB; smB] |}.
Definition prog := {| classes := [classA; classB]; globals := [GFunction "f"; GConstant "M"; GSuper "_GET"] |}.
Definition at_spot s := {| where_ := s; locals := [("v"%string, 1)]; outer := []; at_ := 5 |}.

Lemma belongs_prog c m : belongs prog c m -> (c = 0 /\ In m (c_members classA)) \/ (c = 1 /\ In m (c_members classB)).
Proof.
  intros (k & Hk & Hm). destruct c as [|[|c]]; cbn in Hk.
  - injection Hk as <-. left. auto.
  - injection Hk as <-. right. auto.
  - destruct c; discriminate Hk.
Qed.
Lemma base_prog c b : base prog c b -> c = 1 /\ b = 0.
Proof.
  intros (k & Hk & Hb). destruct c as [|[|c]]; cbn in Hk.
  - injection Hk as <-. discriminate Hb.
  - injection Hk as <-. injection Hb as <-. auto.
  - destruct c; discriminate Hk.
Qed.
Lemma above_prog c b : above prog c b -> c = 1 /\ b = 0.
Proof.
  intros H. induction H as [c b H|c b a H _ (IH & _)]; [now apply base_prog|].
  apply base_prog in H. lia.
Qed.
Example prog_lawful : lawful prog.
Proof.
  split.
  - intros c m m' H H' Hs Hn. apply belongs_prog in H. apply belongs_prog in H'.
    destruct H as [(-> & H)|(-> & H)], H' as [(E & H')|(E & H')]; try discriminate E; clear E; cbn in H, H';
    repeat (destruct H as [<-|H] || destruct H);
    repeat (destruct H' as [<-|H'] || destruct H'); try reflexivity; cbn in Hs, Hn; congruence.
  - intros c a m m' H Ha H' Hp Hs Hn. apply above_prog in Ha. destruct Ha as (-> & ->).
    apply belongs_prog in H. apply belongs_prog in H'.
    destruct H as [(E & H)|(E & H)]; [discriminate E|]. destruct H' as [(E' & H')|(E' & H')]; [|discriminate E'].
    clear E E'. cbn in H, H'.
    repeat (destruct H as [<-|H] || destruct H);
    repeat (destruct H' as [<-|H'] || destruct H'); cbn in Hs, Hn, Hp |- *; try congruence; split; congruence.
  - intros c b H. apply base_prog in H. lia.
Qed.
Lemma name_ok n : n <> EmptyString -> forallb wordChar (list_ascii_of_string n) = true -> isName n.
Proof. intros H H'. split; [exact H|]. now apply words_chars. Qed.
Example prog_names s : goodNames prog (at_spot s).
Proof.
  split; [|split].
  - intros c m H. apply belongs_prog in H. destruct H as [(_ & H)|(_ & H)]; cbn in H;
      repeat (destruct H as [<-|H] || destruct H); apply name_ok; try discriminate; reflexivity.
  - intros g H. cbn in H. repeat (destruct H as [<-|H] || destruct H); apply name_ok; try discriminate; reflexivity.
  - intros v H. cbn in H. destruct H as [<-|[]]. split; [apply name_ok; [discriminate|reflexivity]|].
    cbn. intros X. repeat (destruct X as [X|X]; [discriminate X|]). exact X.
Qed.

(** What is offered in the method m of B, with the text of each. *)
Example offered_in_method :
  map (written (InMethod 1 false)) (offered prog (at_spot (InMethod 1 false))) =
  ["$_GET"; "M"; "f()"; "$this->m()"; "$this->bm()"; "$this->p"; "self::sm()"; "$this->m()"; "self::$s"; "self::d"; "self::K";
   "$v"]%string.
Proof. reflexivity. Qed.
Example means_inherited : exists d', denotes prog (at_spot (InMethod 1 false)) "$this->p" d' /\ alike (DMember 0 pA) d'.
Proof.
  destruct (C78_text_means_partial prog (at_spot (InMethod 1 false)) (DMember 0 pA)) as (d' & A & B & _).
  - exact prog_lawful.
  - cbn. tauto.
  - cbn. auto.
  - exists d'. split; [exact A|exact B].
Qed.
Example line_example :
  accepted (rev (list_ascii_of_string "  return $th")) (list_ascii_of_string ";") (list_ascii_of_string "$this->bm()") =
  list_ascii_of_string "  return $this->bm();".
Proof. reflexivity. Qed.

(** The property as it stands is refuted three times over: in a static method, in a closure, and for a static property that is
    given the value of a constant. *)
Theorem C78_static_method_refuted : exists p pl d, lawful p /\ goodNames p pl /\ In d (offered p pl) /\ usable p pl d /\
  forall d', ~ denotes p pl (written (where_ pl) d) d'.
Proof.
  exists prog, (at_spot (InMethod 1 true)), (DMember 0 bmA).
  split; [exact prog_lawful|]. split; [apply prog_names|].
  assert (Ho : In (DMember 0 bmA) (offered prog (at_spot (InMethod 1 true)))) by (cbn; tauto).
  split; [exact Ho|]. split; [now apply (offered_usable _ _ 1 true)|].
  intros d'. now apply (static_no_meaning prog (at_spot (InMethod 1 true)) 1 0 bmA d' (prog_names _)).
Qed.
Print Assumptions C78_static_method_refuted.

Theorem C78_closure_refuted : exists p pl d, lawful p /\ goodNames p pl /\ In d (offered p pl) /\ usable p pl d /\
  hasThis (where_ pl) /\ forall d', denotes p pl (written (where_ pl) d) d' -> ~ alike d d'.
Proof.
  exists prog, (at_spot (InClosure 1 false)), (DMember 0 bmA).
  split; [exact prog_lawful|]. split; [apply prog_names|].
  assert (Ho : In (DMember 0 bmA) (offered prog (at_spot (InClosure 1 false)))) by (cbn; tauto).
  split; [exact Ho|]. split.
  { split; [exists classA; cbn; auto|]. exists 1. split; [reflexivity|]. right. split; [|discriminate].
    apply ab_base. exists classB. auto. }
  split; [reflexivity|].
  intros d'. now apply (closure_other_meaning prog (at_spot (InClosure 1 false)) 1 false 0 bmA d' (prog_names _)).
Qed.
Print Assumptions C78_closure_refuted.

Theorem C78_constant_refuted : exists p pl d, lawful p /\ goodNames p pl /\ In d (offered p pl) /\ usable p pl d /\
  hasThis (where_ pl) /\ forall d', denotes p pl (written (where_ pl) d) d' -> ~ alike d d'.
Proof.
  exists prog, (at_spot (InMethod 1 false)), (DMember 1 dB).
  split; [exact prog_lawful|]. split; [apply prog_names|].
  assert (Ho : In (DMember 1 dB) (offered prog (at_spot (InMethod 1 false)))) by (cbn; tauto).
  split; [exact Ho|]. split; [now apply (offered_usable _ _ 1 false)|]. split; [reflexivity|].
  intros d'. apply (constant_other_meaning prog (at_spot (InMethod 1 false)) 1 false 1 dB OfConstant d' (prog_names _)); auto.
Qed.
Print Assumptions C78_constant_refuted.

(** A private property of a base class takes the place of the class's own of that name, and is not shown either. *)
Theorem C78_own_property_refuted : exists p pl c d, lawful p /\ where_ pl = InMethod c false /\ usable p pl d /\
  regular pl d /\ ~ In d (offered p pl) /\ (forall d', In d' (offered p pl) -> declName d' <> declName d).
Proof.
  exists prog, (at_spot (InMethod 1 false)), 1, (DMember 1 secretB).
  split; [exact prog_lawful|]. split; [reflexivity|]. split.
  { split; [exists classB; cbn; tauto|]. exists 1. split; [reflexivity|]. now left. }
  split; [cbn; auto|].
  assert (H : forall d', In d' (offered prog (at_spot (InMethod 1 false))) -> declName d' <> declName (DMember 1 secretB)).
  { intros d' H. cbn in H. repeat (destruct H as [<-|H] || destruct H); cbn; discriminate. }
  split; [|exact H]. intros Hi. now apply (H _ Hi).
Qed.
Print Assumptions C78_own_property_refuted.

Example a_method_is_offered : In (DMember 0 bmA) (offered prog (at_spot (InMethod 1 false))).
Proof.
  apply (C78_offered_partial prog (at_spot (InMethod 1 false)) 1 false); [exact prog_lawful|reflexivity| |now left].
  split; [exists classA; cbn; auto|]. exists 1. split; [reflexivity|]. right. split; [|discriminate].
  apply ab_base. exists classB. auto.
Qed.
