From Coq Require Import List Bool Arith NArith String Lia.
From Verif Require Import PhpTypes Chars LexModel ComplModel ThisModel ThisSpec.
Import ListNotations.
Open Scope list_scope.

Lemma isArrayAccess_ok c : isArrayAccess c = true <-> theInterface c.
Proof.
  destruct c as [n i a ns ms b ifs]. unfold isArrayAccess. rewrite !andb_true_iff, negb_true_iff, eqs_eq. split.
  - intros [[-> ->] ->]. unfold theInterface. now exists a, ms, b, ifs.
  - intros (a' & ms' & b' & ifs' & E). injection E as -> -> -> -> -> -> ->. now repeat split.
Qed.
Lemma arrayAccess_ok c : arrayAccess c = true <-> exists x, direct c x /\ theInterface x.
Proof.
  destruct c as [n i a ns ms b ifs]. unfold arrayAccess, direct. rewrite existsb_exists. split.
  - intros (x & I & E). apply isArrayAccess_ok in E. exists x. split; [|exact E]. destruct b as [b|]; [|now right].
    destruct I as [->|I]; [now left|now right].
  - intros (x & I & E). exists x. split; [|now apply isArrayAccess_ok]. destruct I as [->|I]; [now left|].
    destruct b; [now right|exact I].
Qed.
Lemma counted_ok m : counted m = true <-> In m four.
Proof.
  unfold counted, four. rewrite !orb_true_iff, !eqs_eq. cbn [In]. intuition.
Qed.
Lemma four_nodup : NoDup four.
Proof. repeat constructor; cbn [In]; intros H; repeat (destruct H as [H|H]; [vm_compute in H; discriminate H|]); destruct H. Qed.

Lemma other c elem t : ~ elements c -> assignThis (InMethod c) elem t = ReAssign.
Proof.
  intros N. unfold assignThis, declareThis. destruct (arrayAccess c) eqn:E; [|reflexivity].
  exfalso. apply arrayAccess_ok in E. destruct E as (x & A & B). apply N. eapply E_here; eauto.
Qed.
Lemma whole c k : k <> KArray -> assignThis (InMethod c) false (Integral k) = ReAssign.
Proof. intros K. unfold assignThis, declareThis. destruct (arrayAccess c); [|reflexivity]. destruct k; try reflexivity. now destruct K. Qed.

Definition memb (l : list qstring) (m : qstring) : bool := existsb (eqs m) l.
Lemma memb_In l m : memb l m = true <-> In m l.
Proof. unfold memb. rewrite existsb_exists. split; [intros (x & I & E); apply eqs_eq in E; now subst|intros I; exists m; split; [exact I|now apply eqs_eq]]. Qed.
Lemma filter_split {A} (f : A -> bool) l : List.length (filter f l) + List.length (filter (fun x => negb (f x)) l) = List.length l.
Proof. induction l as [|a l IH]; [reflexivity|]. cbn [filter]. destruct (f a); cbn; lia. Qed.
Lemma nodup_same (l r : list qstring) : NoDup l -> NoDup r -> (forall x, In x l <-> In x r) -> List.length l = List.length r.
Proof.
  intros A B H. apply Nat.le_antisymm; apply NoDup_incl_length; auto; intros x; apply H.
Qed.

Lemma complete_ok c : plainClass c ->
  (complete_ c = Nothing /\ (abstractClass c \/ lacks c 0)) \/
  (exists n, complete_ c = Missing n /\ 0 < n /\ ~ abstractClass c /\ lacks c n).
Proof.
  destruct c as [nm i a ns ms b ifs]. intros [Nd Hb]. set (c := Cls nm i a ns ms b ifs) in *.
  set (miss := filter (fun m => negb (memb ms m)) four).
  assert (L : List.length (filter counted ms) + List.length miss = 4).
  { change 4 with (List.length four). rewrite <- (filter_split (memb ms) four). fold miss. f_equal.
    apply nodup_same.
    - now apply NoDup_filter.
    - apply NoDup_filter. exact four_nodup.
    - intros x. rewrite !filter_In, counted_ok, memb_In. tauto. }
  assert (K : lacks c (List.length miss)).
  { exists miss. split; [apply NoDup_filter; exact four_nodup|]. split; [reflexivity|]. intros m. unfold miss. rewrite filter_In, negb_true_iff. split.
    - intros [I E]. split; [exact I|]. intros X. apply (Hb m I) in X. apply memb_In in X. congruence.
    - intros [I N]. split; [exact I|]. destruct (memb ms m) eqn:E; [|reflexivity]. exfalso. apply N. apply memb_In in E. now apply H_own. }
  unfold complete_, c. cbv zeta. destruct (Nat.ltb_spec (List.length (filter counted ms)) 4) as [Q|Q].
  - destruct a.
    + left. split; [reflexivity|]. left. reflexivity.
    + right. exists (4 - List.length (filter counted ms)). split; [reflexivity|]. split; [lia|]. split; [discriminate|].
      replace (4 - List.length (filter counted ms)) with (List.length miss) by lia. exact K.
  - left. split; [reflexivity|]. right. replace 0 with (List.length miss) by lia. exact K.
Qed.
Lemma lacks_unique c n m : lacks c n -> lacks c m -> n = m.
Proof.
  intros (l & A & <- & B) (r & C & <- & D). apply nodup_same; auto. intros x. rewrite B, D. tauto.
Qed.
Lemma element_ok c x t : direct c x -> theInterface x -> plainClass c ->
  (forall n, 0 < n -> (assignThis (InMethod c) true t = Missing n <-> ~ abstractClass c /\ lacks c n)) /\
  (assignThis (InMethod c) true t = Nothing <-> abstractClass c \/ lacks c 0).
Proof.
  intros D I P. assert (E : arrayAccess c = true) by (apply arrayAccess_ok; eauto).
  unfold assignThis, declareThis. rewrite E. cbn [asArray ikind_eqb].
  destruct (complete_ok c P) as [[X Y]|(n & X & Z & Na & Y)]; rewrite X; split.
  - intros m Hm. split; [discriminate|]. intros [N K]. destruct Y as [Y|Y]; [now destruct N|]. pose proof (lacks_unique c _ _ Y K). lia.
  - tauto.
  - intros m Hm. split; [intros Q; injection Q as <-; now split|]. intros [_ K]. now rewrite (lacks_unique c _ _ Y K).
  - split; [discriminate|]. intros [A|K]; [now destruct Na|]. pose proof (lacks_unique c _ _ Y K). lia.
Qed.

Lemma array_value c x : direct c x -> theInterface x -> assignThis (InMethod c) false (Integral KArray) <> ReAssign.
Proof.
  intros D I. assert (E : arrayAccess c = true) by (apply arrayAccess_ok; eauto).
  unfold assignThis, declareThis. rewrite E. cbn [asArray ikind_eqb]. unfold complete_. destruct c as [n i a ns ms b ifs]. cbv zeta.
  destruct (Nat.ltb _ 4); [destruct a; discriminate|discriminate].
Qed.
Lemma object_value c x t : direct c x -> theInterface x -> (forall k, t <> Integral k) -> assignThis (InMethod c) false t = Undefined.
Proof.
  intros D I N. assert (E : arrayAccess c = true) by (apply arrayAccess_ok; eauto).
  unfold assignThis, declareThis. rewrite E. destruct t; try reflexivity. now destruct (N k).
Qed.
Lemma inherited c x t : direct c x -> elements x -> (forall y, direct c y -> ~ theInterface y) ->
  elements c /\ assignThis (InMethod c) true t = ReAssign.
Proof.
  intros D E N. split; [eapply E_up; eauto|]. unfold assignThis, declareThis. destruct (arrayAccess c) eqn:X; [|reflexivity].
  apply arrayAccess_ok in X. destruct X as (y & A & B). destruct (N y A B).
Qed.
Lemma base_methods n b ifs x t : In x ifs -> theInterface x -> (forall m, In m four -> has b m) ->
  let c := Cls n false false false [] (Some b) ifs in lacks c 0 /\ assignThis (InMethod c) true t = Missing 4.
Proof.
  intros I E H c. split.
  - exists []. split; [constructor|]. split; [reflexivity|]. intros m. split; [intros []|]. intros [F N]. apply N. apply H_base. now apply H.
  - unfold assignThis, declareThis. assert (X : arrayAccess c = true) by (apply arrayAccess_ok; exists x; split; [now right|exact E]).
    rewrite X. reflexivity.
Qed.
