(** Proofs for C77. *)
From Coq Require Import List Bool Arith Lia.
From Verif Require Import CloModel CloSpec.
Import ListNotations.
Open Scope nat_scope.

Definition marks (own : scope) := fix go (l : list nd) (got : bool) : list nd * bool :=
  match l with
  | [] => ([], got)
  | k :: r => let (k', g) := mark own k got in let (r', g') := go r g in (k' :: r', g')
  end.
Fixpoint walks (l : list nd) (cur : scope) : list occ * scope :=
  match l with
  | [] => ([], cur)
  | k :: r => let (a, s) := walk k cur in let (b, s') := walks r s in (a ++ b, s')
  end.

(** ** Induction over trees *)
Lemma nd_ind' : forall P : nd -> Prop,
  (forall p x, P (Var p x)) -> (forall l, (forall k, In k l -> P k) -> P (Op l)) -> (forall c e, P e -> P (Arg c e)) ->
  (forall c p x e, P e -> P (Asg c p x e)) -> (forall f ty us b, P b -> P (Clo f ty us b)) ->
  (forall l, (forall k, In k l -> P k) -> P (Stm l)) -> (forall c e, P e -> P (Exp c e)) -> (forall c e, P e -> P (Ret c e)) ->
  (forall c f ty b, P b -> P (Fn c f ty b)) -> forall n, P n.
Proof.
  intros P H1 H2 H3 H4 H5 H6 H7 H8 H9.
  fix IH 1. intros [p x|l|c e|c p x e|f ty us b|l|c e|c e|c f ty b].
  - apply H1.
  - apply H2. induction l as [|k r IHl]; [intros k []|]. intros j [<-|Hj]; [apply IH|exact (IHl j Hj)].
  - apply H3, IH.
  - apply H4, IH.
  - apply H5, IH.
  - apply H6. induction l as [|k r IHl]; [intros k []|]. intros j [<-|Hj]; [apply IH|exact (IHl j Hj)].
  - apply H7, IH.
  - apply H8, IH.
  - apply H9, IH.
Qed.

(** ** Unfolding *)
Lemma mark_op : forall own l g, mark own (Op l) g = (Op (fst (marks own l g)), snd (marks own l g)).
Proof. intros. change (mark own (Op l) g) with (let (l', g') := marks own l g in (Op l', g')). destruct (marks own l g). reflexivity. Qed.
Lemma mark_stm : forall own l g, mark own (Stm l) g = (Stm (fst (marks own l g)), snd (marks own l g)).
Proof. intros. change (mark own (Stm l) g) with (let (l', g') := marks own l g in (Stm l', g')). destruct (marks own l g). reflexivity. Qed.
Lemma walk_op : forall l c, walk (Op l) c = walks l c.
Proof. reflexivity. Qed.
Lemma walk_stm : forall l c, walk (Stm l) c = walks l c.
Proof. reflexivity. Qed.
Lemma marks_cons : forall own k r g, marks own (k :: r) g =
  (fst (mark own k g) :: fst (marks own r (snd (mark own k g))), snd (marks own r (snd (mark own k g)))).
Proof. intros. cbn [marks]. destruct (mark own k g) as [k' g1]. cbn [fst snd]. destruct (marks own r g1). reflexivity. Qed.
Lemma walks_cons : forall k r c, walks (k :: r) c =
  (fst (walk k c) ++ fst (walks r (snd (walk k c))), snd (walks r (snd (walk k c)))).
Proof. intros. cbn [walks]. destruct (walk k c) as [a s]. cbn [fst snd]. destruct (walks r s). reflexivity. Qed.
Lemma marks_app : forall own l1 l2 g, marks own (l1 ++ l2) g =
  (fst (marks own l1 g) ++ fst (marks own l2 (snd (marks own l1 g))), snd (marks own l2 (snd (marks own l1 g)))).
Proof.
  induction l1 as [|k r IH]; intros l2 g; [cbn; destruct (marks own l2 g); reflexivity|].
  rewrite <- app_comm_cons, !marks_cons. cbn [fst snd]. rewrite IH. reflexivity.
Qed.
Lemma walks_app : forall l1 l2 c, walks (l1 ++ l2) c =
  (fst (walks l1 c) ++ fst (walks l2 (snd (walks l1 c))), snd (walks l2 (snd (walks l1 c)))).
Proof.
  induction l1 as [|k r IH]; intros l2 c; [cbn; destruct (walks l2 c); reflexivity|].
  rewrite <- app_comm_cons, !walks_cons. cbn [fst snd]. rewrite IH. cbn [fst snd]. rewrite app_assoc. reflexivity.
Qed.

(** What is met in [n], in a function where it is walked through for declarations with [own] and [g], and for uses with [c]. *)
Definition met (own : scope) (n : nd) (g : bool) (c : scope) : list occ := fst (walk (fst (mark own n g)) c).
Definition after (own : scope) (n : nd) (g : bool) (c : scope) : scope := snd (walk (fst (mark own n g)) c).
Definition mets own l g c := fst (walks (fst (marks own l g)) c).
Definition afters own l g c := snd (walks (fst (marks own l g)) c).
Lemma met_op : forall own l g c, met own (Op l) g c = mets own l g c.
Proof. intros. unfold met. rewrite mark_op. reflexivity. Qed.
Lemma met_stm : forall own l g c, met own (Stm l) g c = mets own l g c.
Proof. intros. unfold met. rewrite mark_stm. reflexivity. Qed.
Lemma after_op : forall own l g c, after own (Op l) g c = afters own l g c.
Proof. intros. unfold after. rewrite mark_op. reflexivity. Qed.
Lemma after_stm : forall own l g c, after own (Stm l) g c = afters own l g c.
Proof. intros. unfold after. rewrite mark_stm. reflexivity. Qed.
Ltac unf := unfold met, after; cbn [mark]; try match goal with |- context [mark ?o ?e ?g] => destruct (mark o e g) as [? ?] eqn:?E end; cbn [fst snd walk taking].
Lemma met_arg : forall own k e g c, met own (Arg k e) g c = met own e g own.
Proof. intros. unf. reflexivity. Qed.
Lemma after_arg : forall own k e g c, after own (Arg k e) g c = after own e g own.
Proof. intros. unf. reflexivity. Qed.
Lemma met_asg : forall own k p x e g c, met own (Asg k p x e) g c = {| op := p; ox := x; ok := Target; os := own |} :: met own e g own.
Proof. intros. unf. destruct (walk n own). reflexivity. Qed.
Lemma after_asg : forall own k p x e g c, after own (Asg k p x e) g c = after own e g own.
Proof. intros. unf. destruct (walk n own). reflexivity. Qed.
Lemma met_exp : forall own e g c, met own (Exp None e) g c = met own e g c.
Proof. intros. unf. reflexivity. Qed.
Lemma after_exp : forall own e g c, after own (Exp None e) g c = after own e g c.
Proof. intros. unf. reflexivity. Qed.
Definition returns (own : scope) (e : nd) (g : bool) (c : scope) : scope :=
  match own with Of _ => if snd (mark own e g) then c else own | File => c end.
Lemma met_ret : forall own e g c, met own (Ret None e) g c = met own e g (returns own e g c).
Proof. intros. unfold returns. unf. destruct own; [reflexivity|]. destruct b; reflexivity. Qed.
Lemma after_ret : forall own e g c, after own (Ret None e) g c = after own e g (returns own e g c).
Proof. intros. unfold returns. unf. destruct own; [reflexivity|]. destruct b; reflexivity. Qed.
Lemma met_clo : forall own f ty us b g c, met own (Clo f ty us b) g c =
  met (Of f) b ty c ++ map (fun u => {| op := fst u; ox := snd u; ok := Captured; os := after (Of f) b ty c |}) us.
Proof. intros. unf. destruct (walk n c). reflexivity. Qed.
Lemma after_clo : forall own f ty us b g c, after own (Clo f ty us b) g c = after (Of f) b ty c.
Proof. intros. unf. destruct (walk n c). reflexivity. Qed.
Lemma met_fn : forall own k f ty b g c, met own (Fn k f ty b) g c = met (Of f) b ty (Of f).
Proof. intros. unf. reflexivity. Qed.
Lemma after_fn : forall own k f ty b g c, after own (Fn k f ty b) g c = after (Of f) b ty (Of f).
Proof. intros. unf. reflexivity. Qed.
Lemma mets_split : forall own l1 k l2 g c, exists g' c', mets own (l1 ++ k :: l2) g c =
  mets own l1 g c ++ met own k (snd (marks own l1 g)) (afters own l1 g c) ++ mets own l2 g' c'.
Proof.
  intros. unfold mets, afters. rewrite marks_app. cbn [fst snd]. rewrite marks_cons. cbn [fst snd]. rewrite walks_app. cbn [fst snd].
  rewrite walks_cons. cbn [fst snd]. eexists. eexists. f_equal.
Qed.

(** ** Parsed trees *)
Definition parseds := fun s l => forall k, In k l -> parsed s k.
Lemma parsed_list : forall s l, (fix go (l : list nd) : Prop := match l with [] => True | k :: r => parsed s k /\ go r end) l <-> parseds s l.
Proof.
  induction l as [|k r IH]; [split; [intros _ j []|exact (fun _ => I)]|]. split.
  - intros [H1 H2] j [<-|Hj]; [exact H1|]. apply (proj1 IH H2 j Hj).
  - intros H. split; [apply H; left; reflexivity|]. apply (proj2 IH). intros j Hj. apply H. right. exact Hj.
Qed.
Lemma parsed_op : forall s l, parsed s (Op l) -> s = false /\ parseds s l.
Proof. intros s l [H1 H2]. split; [exact H1|]. apply (proj1 (parsed_list s l) H2). Qed.
Lemma parsed_stm : forall s l, parsed s (Stm l) -> s = true /\ parseds s l.
Proof. intros s l [H1 H2]. split; [exact H1|]. apply (proj1 (parsed_list s l) H2). Qed.
Definition whole (n : nd) : Prop := exists s, parsed s n.
Lemma wh : forall s n, parsed s n -> whole n.
Proof. intros s n H. exists s. exact H. Qed.
Lemma whole_op : forall l, whole (Op l) -> forall k, In k l -> whole k.
Proof. intros l [s H] k Hk. apply parsed_op in H as [_ H]. exists s. exact (H k Hk). Qed.
Lemma whole_stm : forall l, whole (Stm l) -> forall k, In k l -> whole k.
Proof. intros l [s H] k Hk. apply parsed_stm in H as [_ H]. exists s. exact (H k Hk). Qed.
Lemma whole_arg : forall c e, whole (Arg c e) -> whole e.
Proof. intros c e [s (_ & _ & H)]. exists false. exact H. Qed.
Lemma whole_asg : forall c p x e, whole (Asg c p x e) -> whole e.
Proof. intros c p x e [s (_ & _ & H)]. exists false. exact H. Qed.
Lemma whole_exp : forall c e, whole (Exp c e) -> c = None /\ whole e.
Proof. intros c e [s (_ & H & H')]. split; [exact H|]. exists false. exact H'. Qed.
Lemma whole_ret : forall c e, whole (Ret c e) -> c = None /\ whole e.
Proof. intros c e [s (_ & H & H')]. split; [exact H|]. exists false. exact H'. Qed.
Lemma whole_clo : forall f ty us b, whole (Clo f ty us b) -> whole b.
Proof. intros f ty us b [s (_ & H)]. exists true. exact H. Qed.
Lemma whole_fn : forall c f ty b, whole (Fn c f ty b) -> whole b.
Proof. intros c f ty b [s (_ & _ & H)]. exists true. exact H. Qed.
Lemma same_whole : forall n m, Same n m -> whole n -> whole m.
Proof.
  induction 1 as [n|l k m Hk _ IH|l k m Hk _ IH|c e m _ IH|c p x e m _ IH|c e m _ IH|c e m _ IH]; intros W; try apply IH.
  - exact W.
  - exact (whole_op l W k Hk).
  - exact (whole_stm l W k Hk).
  - exact (whole_arg c e W).
  - exact (whole_asg c p x e W).
  - exact (proj2 (whole_exp c e W)).
  - exact (proj2 (whole_ret c e W)).
Qed.
Lemma body_whole : forall n s ty b, Body n s ty b -> whole n -> whole b.
Proof.
  induction 1 as [|s ty b f ty' us b' _ IH HS|s ty b c f ty' b' _ IH HS]; intros W; [exact W| |].
  - apply (whole_clo f ty' us). exact (same_whole _ _ HS (IH W)).
  - apply (whole_fn c f ty'). exact (same_whole _ _ HS (IH W)).
Qed.

(** ** Pieces without functions leave the context as it is *)
Lemma quiet_after : forall n own g, whole n -> quiet n -> after own n g own = own.
Proof.
  induction n as [p x|l IH|c e IH|c p x e IH|f ty us b IH|l IH|c e IH|c e IH|c f ty b IH] using nd_ind'; intros own g W Q.
  - reflexivity.
  - rewrite after_op. assert (H : forall k, In k l -> forall g, after own k g own = own).
    { intros k Hk g'. apply IH; [exact Hk|exact (whole_op l W k Hk)|]. intros m Hm. apply Q. apply (S_op l k m Hk Hm). }
    clear IH Q W. revert g. induction l as [|k r IHr]; intros g; [reflexivity|]. unfold afters. rewrite marks_cons. cbn [fst].
    rewrite walks_cons. cbn [snd]. fold (after own k g own). rewrite (H k (or_introl eq_refl)). apply IHr. intros j Hj. apply H. right. exact Hj.
  - rewrite after_arg. apply IH; [exact (whole_arg c e W)|]. intros m Hm. apply Q. apply S_arg. exact Hm.
  - rewrite after_asg. apply IH; [exact (whole_asg c p x e W)|]. intros m Hm. apply Q. apply S_asg. exact Hm.
  - exfalso. exact (Q _ (S_here _)).
  - rewrite after_stm. assert (H : forall k, In k l -> forall g, after own k g own = own).
    { intros k Hk g'. apply IH; [exact Hk|exact (whole_stm l W k Hk)|]. intros m Hm. apply Q. apply (S_stm l k m Hk Hm). }
    clear IH Q W. revert g. induction l as [|k r IHr]; intros g; [reflexivity|]. unfold afters. rewrite marks_cons. cbn [fst].
    rewrite walks_cons. cbn [snd]. fold (after own k g own). rewrite (H k (or_introl eq_refl)). apply IHr. intros j Hj. apply H. right. exact Hj.
  - destruct (whole_exp c e W) as [-> W']. rewrite after_exp. apply IH; [exact W'|]. intros m Hm. apply Q. apply S_exp. exact Hm.
  - destruct (whole_ret c e W) as [-> W']. rewrite after_ret.
    assert (R : returns own e g own = own) by (unfold returns; destruct own; [reflexivity|]; destruct (snd (mark (Of f) e g)); reflexivity).
    rewrite R. apply IH; [exact W'|]. intros m Hm. apply Q. apply S_ret. exact Hm.
  - exfalso. exact (Q _ (S_here _)).
Qed.
Lemma quiets_after : forall l own g, (forall k, In k l -> whole k) -> (forall k, In k l -> quiet k) -> afters own l g own = own.
Proof.
  induction l as [|k r IH]; intros own g W Q; [reflexivity|]. unfold afters. rewrite marks_cons. cbn [fst].
  rewrite walks_cons. cbn [snd]. fold (after own k g own). rewrite quiet_after; [apply IH; intros j Hj; [apply W|apply Q]; right; exact Hj| |];
  [apply W|apply Q]; left; reflexivity.
Qed.

(** ** A part is met where the whole is *)
Lemma early_met : forall n m, Early n m -> whole n -> forall own g, exists g', incl (met own m g' own) (met own n g own).
Proof.
  assert (R : forall own e g, returns own e g own = own) by (intros own e g; unfold returns; destruct own; [reflexivity|]; destruct (snd (mark (Of f) e g)); reflexivity).
  induction 1 as [n|l1 k l2 m HQ _ IH|l1 k l2 m HQ _ IH|c e m _ IH|c p x e m _ IH|c e m _ IH|c e m _ IH]; intros W own g.
  - exists g. apply incl_refl.
  - assert (Wk : forall j, In j (l1 ++ k :: l2) -> whole j) by (exact (whole_op _ W)).
    rewrite met_op. destruct (mets_split own l1 k l2 g own) as (g2 & c2 & ->).
    rewrite quiets_after; [|intros j Hj; apply Wk; apply in_or_app; left; exact Hj|exact HQ].
    destruct (IH (Wk k (in_elt k l1 l2)) own (snd (marks own l1 g))) as [g' H].
    exists g'. apply incl_appr, incl_appl. exact H.
  - assert (Wk : forall j, In j (l1 ++ k :: l2) -> whole j) by (exact (whole_stm _ W)).
    rewrite met_stm. destruct (mets_split own l1 k l2 g own) as (g2 & c2 & ->).
    rewrite quiets_after; [|intros j Hj; apply Wk; apply in_or_app; left; exact Hj|exact HQ].
    destruct (IH (Wk k (in_elt k l1 l2)) own (snd (marks own l1 g))) as [g' H].
    exists g'. apply incl_appr, incl_appl. exact H.
  - rewrite met_arg. apply IH. exact (whole_arg c e W).
  - rewrite met_asg. destruct (IH (whole_asg c p x e W) own g) as [g' H]. exists g'. apply incl_tl. exact H.
  - destruct (whole_exp c e W) as [-> W']. rewrite met_exp. apply IH. exact W'.
  - destruct (whole_ret c e W) as [-> W']. rewrite met_ret, R. apply IH. exact W'.
Qed.

Definition untypeds := fun l => forall k, In k l -> untyped k.
Lemma untyped_list : forall l, (fix go (l : list nd) : Prop := match l with [] => True | k :: r => untyped k /\ go r end) l <-> untypeds l.
Proof.
  induction l as [|k r IH]; [split; [intros _ j []|exact (fun _ => I)]|]. split.
  - intros [H1 H2] j [<-|Hj]; [exact H1|]. apply (proj1 IH H2 j Hj).
  - intros H. split; [apply H; left; reflexivity|]. apply (proj2 IH). intros j Hj. apply H. right. exact Hj.
Qed.
Lemma untyped_op : forall l, untyped (Op l) -> untypeds l.
Proof. intros l H. apply (proj1 (untyped_list l) H). Qed.
Lemma untyped_stm : forall l, untyped (Stm l) -> untypeds l.
Proof. intros l H. apply (proj1 (untyped_list l) H). Qed.
Lemma marks_got : forall own l, (forall k, In k l -> snd (mark own k false) = false) -> snd (marks own l false) = false.
Proof.
  induction l as [|k r IH]; intros H; [reflexivity|]. rewrite marks_cons. cbn [snd]. rewrite (H k (or_introl eq_refl)). apply IH.
  intros j Hj. apply H. right. exact Hj.
Qed.
Lemma untyped_got : forall n own, untyped n -> snd (mark own n false) = false.
Proof.
  induction n as [p x|l IH|c e IH|c p x e IH|f ty us b IH|l IH|c e IH|c e IH|c f ty b IH] using nd_ind'; intros own U.
  - reflexivity.
  - rewrite mark_op. cbn [snd]. apply marks_got. intros k Hk. apply IH; [exact Hk|]. exact (untyped_op l U k Hk).
  - specialize (IH own U). cbn [mark]. destruct (mark own e false). exact IH.
  - specialize (IH own U). cbn [mark]. destruct (mark own e false). exact IH.
  - destruct U as [-> U]. specialize (IH (Of f) U). cbn [mark]. destruct (mark (Of f) b false). exact IH.
  - rewrite mark_stm. cbn [snd]. apply marks_got. intros k Hk. apply IH; [exact Hk|]. exact (untyped_stm l U k Hk).
  - specialize (IH own U). cbn [mark]. destruct (mark own e false). exact IH.
  - specialize (IH own U). cbn [mark]. destruct (mark own e false). exact IH.
  - destruct U as [-> U]. specialize (IH (Of f) U). cbn [mark]. destruct (mark (Of f) b false). exact IH.
Qed.

Lemma same_met : forall n m, Same n m -> whole n -> forall own g c, exists g' c', incl (met own m g' c') (met own n g c) /\
  (untyped n -> g = false -> g' = false /\ untyped m).
Proof.
  induction 1 as [n|l k m Hk _ IH|l k m Hk _ IH|c0 e m _ IH|c0 p x e m _ IH|c0 e m _ IH|c0 e m _ IH]; intros W own g c.
  - exists g, c. split; [apply incl_refl|]. intros U G. auto.
  - specialize (IH (whole_op l W k Hk)). rewrite met_op. apply in_split in Hk as (l1 & l2 & ->).
    destruct (mets_split own l1 k l2 g c) as (g2 & c2 & ->).
    destruct (IH own (snd (marks own l1 g)) (afters own l1 g c)) as (g' & c' & H1 & H2). exists g', c'.
    split; [apply incl_appr, incl_appl; exact H1|]. intros U ->. pose proof (untyped_op _ U) as U'.
    apply H2; [apply U'; apply in_or_app; right; left; reflexivity|]. apply marks_got. intros j Hj. apply untyped_got, U', in_or_app. left. exact Hj.
  - specialize (IH (whole_stm l W k Hk)). rewrite met_stm. apply in_split in Hk as (l1 & l2 & ->).
    destruct (mets_split own l1 k l2 g c) as (g2 & c2 & ->).
    destruct (IH own (snd (marks own l1 g)) (afters own l1 g c)) as (g' & c' & H1 & H2). exists g', c'.
    split; [apply incl_appr, incl_appl; exact H1|]. intros U ->. pose proof (untyped_stm _ U) as U'.
    apply H2; [apply U'; apply in_or_app; right; left; reflexivity|]. apply marks_got. intros j Hj. apply untyped_got, U', in_or_app. left. exact Hj.
  - rewrite met_arg. exact (IH (whole_arg c0 e W) own g own).
  - rewrite met_asg. destruct (IH (whole_asg c0 p x e W) own g own) as (g' & c' & H1 & H2). exists g', c'. split; [apply incl_tl; exact H1|exact H2].
  - destruct (whole_exp c0 e W) as [-> W']. rewrite met_exp. exact (IH W' own g c).
  - destruct (whole_ret c0 e W) as [-> W']. rewrite met_ret. exact (IH W' own g (returns own e g c)).
Qed.

(** ** UseBuilder *)
Definition top (own : scope) (n : nd) (g : bool) : list occ := useBuilder (fst (mark own n g)) own.
Lemma top_exp : forall own c e g, top own (Exp c e) g = met own e g own.
Proof. intros. unfold top. unf. cbn [useBuilder walk taking]. reflexivity. Qed.
Lemma top_ret : forall own c e g, top own (Ret c e) g = met own e g own.
Proof. intros. unfold top. unf. cbn [useBuilder walk taking]. reflexivity. Qed.
Lemma top_fn : forall own c f ty b g, top own (Fn c f ty b) g = top (Of f) b ty.
Proof. intros. unfold top. cbn [mark]. destruct (mark (Of f) b ty) as [b' g'] eqn:E. reflexivity. Qed.
Lemma top_stm : forall own l1 k l2 g, exists g', top own (Stm (l1 ++ k :: l2)) g =
  flat_map (fun k => useBuilder k own) (fst (marks own l1 g)) ++ top own k (snd (marks own l1 g)) ++ flat_map (fun k => useBuilder k own) (fst (marks own l2 g')).
Proof.
  intros. unfold top. rewrite mark_stm. cbn [fst useBuilder]. rewrite marks_app. cbn [fst]. rewrite marks_cons. cbn [fst].
  rewrite flat_map_app. cbn [flat_map]. eexists. reflexivity.
Qed.

(** Parts of statements. *)
Lemma statement_top : forall n k, Statement n k -> forall own g, exists g', incl (top own k g') (top own n g).
Proof.
  induction 1 as [n|l k m Hk _ IH]; intros own g; [exists g; apply incl_refl|].
  apply in_split in Hk as (l1 & l2 & ->). destruct (top_stm own l1 k l2 g) as (g2 & ->).
  destruct (IH own (snd (marks own l1 g))) as (g' & H). exists g'. apply incl_appr, incl_appl. exact H.
Qed.
Lemma plain_top : forall n s b, Plain n s b -> exists g, incl (top s b g) (occurrences n).
Proof.
  induction 1 as [|s b c f ty b' _ [g IH] HS]; [exists false; apply incl_refl|].
  destruct (statement_top _ _ HS s g) as (g' & H). rewrite top_fn in H. exists ty. intros o Ho. apply IH, H, Ho.
Qed.
(** Whatever is written in a statement outside of closures is either a statement there, or met by an expression visitor. *)
Lemma same_top : forall n m, Same n m -> parsed true n -> forall own g,
  Statement n m \/ exists e g', whole e /\ Same e m /\ incl (met own e g' own) (top own n g).
Proof.
  induction 1 as [n|l k m Hk HS IH|l k m Hk HS IH|c0 e m HS IH|c0 p x e m HS IH|c0 e m HS IH|c0 e m HS IH]; intros P own g.
  - left. constructor.
  - destruct P as [P _]. discriminate.
  - apply parsed_stm in P as [_ P].
    assert (Hk' := Hk). apply in_split in Hk' as (l1 & l2 & ->).
    destruct (IH (P k Hk) own (snd (marks own l1 g))) as [H|(e & g' & W & H1 & H2)]; [left; exact (Sm_stm _ _ _ Hk H)|].
    right. exists e, g'. split; [exact W|]. split; [exact H1|].
    destruct (top_stm own l1 k l2 g) as (g2 & ->). apply incl_appr, incl_appl. exact H2.
  - destruct P as [P _]. discriminate.
  - destruct P as [P _]. discriminate.
  - right. exists e, g. destruct P as (_ & _ & P). split; [exists false; exact P|]. split; [exact HS|]. rewrite top_exp. apply incl_refl.
  - right. exists e, g. destruct P as (_ & _ & P). split; [exists false; exact P|]. split; [exact HS|]. rewrite top_ret. apply incl_refl.
Qed.

(** ** Bodies *)
Lemma same_expr : forall n m, Same n m -> parsed false n -> parsed false m.
Proof.
  induction 1 as [n|l k m Hk _ IH|l k m Hk _ IH|c e m _ IH|c p x e m _ IH|c e m _ IH|c e m _ IH]; intros P.
  - exact P.
  - apply parsed_op in P as [_ P]. exact (IH (P k Hk)).
  - apply parsed_stm in P as [P _]. discriminate.
  - destruct P as (_ & _ & P). exact (IH P).
  - destruct P as (_ & _ & P). exact (IH P).
  - destruct P as (P & _). discriminate.
  - destruct P as (P & _). discriminate.
Qed.
Lemma statement_parsed : forall n k, Statement n k -> parsed true n -> parsed true k.
Proof. induction 1 as [n|l k m Hk _ IH]; intros P; [exact P|]. apply parsed_stm in P as [_ P]. exact (IH (P k Hk)). Qed.
Lemma same_parts : forall n m, Same n m -> parsed true n -> Statement n m \/ exists e, parsed false e /\ Same e m /\ forall own g, exists g', incl (met own e g' own) (top own n g).
Proof.
  induction 1 as [n|l k m Hk HS IH|l k m Hk HS IH|c0 e m HS IH|c0 p x e m HS IH|c0 e m HS IH|c0 e m HS IH]; intros P.
  - left. constructor.
  - destruct P as [P _]. discriminate.
  - apply parsed_stm in P as [_ P].
    destruct (IH (P k Hk)) as [H|(e & W & H1 & H2)]; [left; exact (Sm_stm _ _ _ Hk H)|].
    right. exists e. split; [exact W|]. split; [exact H1|]. intros own g. apply in_split in Hk as (l1 & l2 & ->).
    destruct (H2 own (snd (marks own l1 g))) as [g' H]. exists g'.
    destruct (top_stm own l1 k l2 g) as (g2 & ->). apply incl_appr, incl_appl. exact H.
  - destruct P as [P _]. discriminate.
  - destruct P as [P _]. discriminate.
  - right. exists e. destruct P as (_ & _ & P). split; [exact P|]. split; [exact HS|]. intros own g. exists g. rewrite top_exp. apply incl_refl.
  - right. exists e. destruct P as (_ & _ & P). split; [exact P|]. split; [exact HS|]. intros own g. exists g. rewrite top_ret. apply incl_refl.
Qed.
Lemma same_any : forall n m, Same n m -> forall s, parsed s n -> exists s', parsed s' m.
Proof. intros n m H s P. exact (same_whole n m H (ex_intro _ s P)). Qed.
Lemma body_parsed : forall n s ty b, Body n s ty b -> parsed true n -> parsed true b.
Proof.
  induction 1 as [|s ty b f ty' us b' _ IH HS|s ty b c f ty' b' _ IH HS]; intros P; [exact P| |].
  - destruct (same_any _ _ HS _ (IH P)) as [s' [_ H]]. exact H.
  - destruct (same_any _ _ HS _ (IH P)) as [s' (_ & _ & H)]. exact H.
Qed.

Definition found (n : nd) (s : scope) (ty : bool) (b : nd) : Prop := Plain n s b \/ exists c, incl (met s b ty c) (occurrences n).
Lemma parsed_one : forall m, parsed true m -> parsed false m -> False.
Proof. intros [p x|l|c e|c p x e|f ty us b|l|c e|c e|c f ty b] H1 H2; cbn in H1, H2; try discriminate; destruct H1 as [H1 _], H2 as [H2 _]; discriminate. Qed.
Lemma early_top : forall n m, Early n m -> parsed true n -> parsed false m -> forall own g, exists g', incl (met own m g' own) (top own n g).
Proof.
  induction 1 as [n|l1 k l2 m HQ HE IH|l1 k l2 m HQ HE IH|c e m HE IH|c p x e m HE IH|c e m HE IH|c e m HE IH]; intros P PM own g.
  - exfalso. exact (parsed_one n P PM).
  - destruct P as [P _]. discriminate.
  - apply parsed_stm in P as [_ P]. destruct (IH (P k (in_elt k l1 l2)) PM own (snd (marks own l1 g))) as [g' H]. exists g'.
    destruct (top_stm own l1 k l2 g) as (g2 & ->). apply incl_appr, incl_appl. exact H.
  - destruct P as [P _]. discriminate.
  - destruct P as [P _]. discriminate.
  - destruct P as (_ & _ & P). destruct (early_met e m HE (wh _ _ P) own g) as [g' H]. exists g'. rewrite top_exp. exact H.
  - destruct P as (_ & _ & P). destruct (early_met e m HE (wh _ _ P) own g) as [g' H]. exists g'. rewrite top_ret. exact H.
Qed.
(** An expression in a body that has been found is met. *)
Lemma part_met : forall n s ty b m, found n s ty b -> parsed true b -> Same b m -> parsed false m -> exists g c, incl (met s m g c) (occurrences n).
Proof.
  intros n s ty b m F P HS PM. destruct F as [F|[c F]].
  - destruct (plain_top n s b F) as [g H]. destruct (same_parts b m HS P) as [H1|(e & We & H1 & H2)].
    + exfalso. exact (parsed_one m (statement_parsed _ _ H1 P) PM).
    + destruct (H2 s g) as [g1 H3]. destruct (same_met e m H1 (wh _ _ We) s g1 s) as (g2 & c2 & H4 & _).
      exists g2, c2. intros o Ho. apply H, H3, H4, Ho.
  - destruct (same_met b m HS (wh _ _ P) s ty c) as (g2 & c2 & H4 & _). exists g2, c2. intros o Ho. apply F, H4, Ho.
Qed.
Lemma expr_clo : forall n b f ty us b', Same b (Clo f ty us b') -> parsed true n -> forall s t, Body n s t b -> parsed false (Clo f ty us b').
Proof.
  intros n b f ty us b' HS P s t B. pose proof (body_parsed _ _ _ _ B P) as PB. destruct (same_any _ _ HS _ PB) as [s' [-> H]]. split; [reflexivity|exact H].
Qed.
Lemma body_found : forall n s ty b, Body n s ty b -> parsed true n -> found n s ty b.
Proof.
  intros n s ty b H P. induction H as [|s ty b f ty' us b' HB IH HS|s ty b c f ty' b' HB IH HS].
  - left. constructor.
  - right. pose proof (body_parsed _ _ _ _ HB P) as PB.
    destruct (part_met n s ty b _ IH PB HS (expr_clo n b f ty' us b' HS P s ty HB)) as (g & c & H). exists c.
    rewrite met_clo in H. intros o Ho. apply H, in_or_app. left. exact Ho.
  - pose proof (body_parsed _ _ _ _ HB P) as PB. destruct IH as [F|[c0 F]].
    + destruct (same_parts b _ HS PB) as [H1|(e & We & H1 & H2)].
      * left. exact (Pl_function n s b c f ty' b' F H1).
      * exfalso. apply same_expr in H1; [|exact We]. destruct H1 as [H1 _]. discriminate.
    + right. exists (Of f). destruct (same_met b _ HS (wh _ _ PB) s ty c0) as (g2 & c2 & H4 & _). rewrite met_fn in H4.
      intros o Ho. apply F, H4, Ho.
Qed.

(** ** The pieces that are right *)
Lemma right_met : forall n s m, parsed true n -> Right n s m -> parsed false m -> exists g, incl (met s m g s) (occurrences n).
Proof.
  intros n s m P H PM. destruct H as [s ty b c e m HB HS HE|s ty b c p x e HB HS|s ty b c p x e m HB HS HE|f b c e m HB U HS HE|s b c e m HP HS HE|s ty b c f ty' b' m HB HS HE].
  - pose proof (body_parsed _ _ _ _ HB P) as PB. destruct (same_any _ _ HS _ PB) as [s' PA]. assert (s' = false) by exact (proj1 PA). subst s'.
    destruct (part_met n s ty b _ (body_found _ _ _ _ HB P) PB HS PA) as (g & c' & H). rewrite met_arg in H.
    destruct (early_met e m HE (whole_arg c e (wh _ _ PA)) s g) as [g' H']. exists g'. intros o Ho. apply H, H', Ho.
  - pose proof (body_parsed _ _ _ _ HB P) as PB. destruct (same_any _ _ HS _ PB) as [s' PA]. assert (s' = false) by exact (proj1 PA). subst s'.
    destruct (part_met n s ty b _ (body_found _ _ _ _ HB P) PB HS PA) as (g & c' & H). exists g. rewrite met_asg in *. exact H.
  - pose proof (body_parsed _ _ _ _ HB P) as PB. destruct (same_any _ _ HS _ PB) as [s' PA]. assert (s' = false) by exact (proj1 PA). subst s'.
    destruct (part_met n s ty b _ (body_found _ _ _ _ HB P) PB HS PA) as (g & c' & H). rewrite met_asg in H.
    destruct (early_met e m HE (whole_asg c p x e (wh _ _ PA)) s g) as [g' H']. exists g'. intros o Ho. apply H. right. apply H', Ho.
  - pose proof (body_parsed _ _ _ _ HB P) as PB. destruct (same_any _ _ HS _ PB) as [s' PA]. assert (s' = true) by exact (proj1 PA). subst s'.
    destruct PA as (_ & Ec & PA). subst c. destruct (body_found _ _ _ _ HB P) as [F|[c F]].
    + destruct (plain_top n _ b F) as [g H]. destruct (same_parts b _ HS PB) as [H1|(e' & We & H1 & H2)].
      * destruct (statement_top _ _ H1 (Of f) g) as [g1 H3]. rewrite top_ret in H3.
        destruct (early_met e m HE (wh _ _ PA) (Of f) g1) as [g' H']. exists g'. intros o Ho. apply H, H3, H', Ho.
      * exfalso. apply same_expr in H1; [|exact We]. destruct H1 as [H1 _]. discriminate.
    + destruct (same_met b _ HS (wh _ _ PB) (Of f) false c) as (g2 & c2 & H4 & H5). destruct (H5 U eq_refl) as [-> U'].
      rewrite met_ret in H4. assert (R : returns (Of f) e false c2 = Of f) by (unfold returns; rewrite (untyped_got e (Of f) U'); reflexivity).
      rewrite R in H4. destruct (early_met e m HE (wh _ _ PA) (Of f) false) as [g' H']. exists g'. intros o Ho. apply F, H4, H', Ho.
  - destruct (plain_top n s b HP) as [g H].
    assert (PB : parsed true b).
    { clear HS H g HE. induction HP as [|s b c0 f ty b' _ IH HS]; [exact P|]. destruct (statement_parsed _ _ HS IH) as (_ & _ & H). exact H. }
    destruct HS as [HS|HS].
    + destruct (statement_top _ _ HS s g) as [g1 H1]. rewrite top_exp in H1. destruct (statement_parsed _ _ HS PB) as (_ & _ & PE).
      destruct (early_met e m HE (wh _ _ PE) s g1) as [g' H']. exists g'. intros o Ho. apply H, H1, H', Ho.
    + destruct (statement_top _ _ HS s g) as [g1 H1]. rewrite top_ret in H1. destruct (statement_parsed _ _ HS PB) as (_ & _ & PE).
      destruct (early_met e m HE (wh _ _ PE) s g1) as [g' H']. exists g'. intros o Ho. apply H, H1, H', Ho.
  - pose proof (body_parsed _ _ _ _ HB P) as PB. pose proof (B_function _ _ _ _ _ _ _ _ HB HS) as HB'.
    pose proof (body_parsed _ _ _ _ HB' P) as PB'.
    destruct (body_found _ _ _ _ HB P) as [F|[c0 F]].
    + destruct (same_parts b _ HS PB) as [H1|(e & We & H1 & H2)].
      * destruct (plain_top n (Of f) b' (Pl_function n s b c f ty' b' F H1)) as [g H].
        destruct (early_top b' m HE PB' PM (Of f) g) as [g' H']. exists g'. intros o Ho. apply H, H', Ho.
      * exfalso. apply same_expr in H1; [|exact We]. destruct H1 as [H1 _]. discriminate.
    + destruct (same_met b _ HS (wh _ _ PB) s ty c0) as (g2 & c2 & H4 & _). rewrite met_fn in H4.
      destruct (early_met b' m HE (wh _ _ PB') (Of f) ty') as [g' H']. exists g'. intros o Ho. apply F, H4, H', Ho.
Qed.

(** ** Every occurrence is met, once, and nothing else *)
Definition isScope (n : nd) (s : scope) : Prop := exists ty b, Body n s ty b.
Definition fine (n : nd) (o : occ) : Prop := isScope n (os o) /\ exists s, Stands n s (ox o) (op o) (ok o).
Lemma list_fine : forall n own l,
  (forall k, In k l -> forall g c, isScope n c -> (forall o, In o (met own k g c) -> fine n o) /\ isScope n (after own k g c)) ->
  forall g c, isScope n c -> (forall o, In o (mets own l g c) -> fine n o) /\ isScope n (afters own l g c).
Proof.
  induction l as [|k r IH]; intros H g c S; [split; [intros o []|exact S]|].
  destruct (H k (or_introl eq_refl) g c S) as [H1 S1].
  destruct (IH (fun j Hj => H j (or_intror Hj)) (snd (mark own k g)) (after own k g c) S1) as [H2 S2].
  unfold mets, afters. rewrite marks_cons. cbn [fst]. rewrite walks_cons. cbn [fst snd]. split; [|exact S2].
  intros o Ho. apply in_app_or in Ho as [Ho|Ho]; [apply H1|apply H2]; exact Ho.
Qed.
Lemma same_trans : forall a b c, Same a b -> Same b c -> Same a c.
Proof.
  induction 1 as [n|l k m Hk _ IH|l k m Hk _ IH|c0 e m _ IH|c0 p x e m _ IH|c0 e m _ IH|c0 e m _ IH]; intros H.
  - exact H.
  - exact (S_op l k c Hk (IH H)).
  - exact (S_stm l k c Hk (IH H)).
  - apply S_arg, IH, H.
  - apply S_asg, IH, H.
  - apply S_exp, IH, H.
  - apply S_ret, IH, H.
Qed.
Lemma met_fine : forall k n own ty b, Body n own ty b -> Same b k -> whole k -> forall g c, isScope n c ->
  (forall o, In o (met own k g c) -> fine n o) /\ isScope n (after own k g c).
Proof.
  induction k as [p x|l IH|c0 e IH|c0 p x e IH|f ty' us b' IH|l IH|c0 e IH|c0 e IH|c0 f ty' b' IH] using nd_ind'; intros n own ty b HB HS W g c SC.
  - split; [|exact SC]. intros o [<-|[]]. split; [exact SC|]. exists own. exact (St_read n own ty b p x HB HS).
  - rewrite met_op, after_op. apply list_fine; [|exact SC]. intros k Hk g' c' SC'. apply (IH k Hk n own ty b HB); [|exact (whole_op l W k Hk)|exact SC'].
    apply (same_trans _ _ _ HS). apply (S_op l k k Hk), S_here.
  - rewrite met_arg, after_arg. apply (IH n own ty b HB); [|exact (whole_arg c0 e W)|exists ty, b; exact HB]. apply (same_trans _ _ _ HS), S_arg, S_here.
  - rewrite met_asg, after_asg. destruct (IH n own ty b HB (same_trans _ _ _ HS (S_asg _ _ _ _ _ (S_here e))) (whole_asg c0 p x e W) g own) as [H1 H2].
    { exists ty, b. exact HB. }
    split; [|exact H2]. intros o [<-|Ho]; [|apply H1; exact Ho]. split; [exists ty, b; exact HB|]. exists own. exact (St_target n own ty b c0 p x e HB HS).
  - rewrite met_clo, after_clo. destruct (IH n (Of f) ty' b' (B_closure n own ty b f ty' us b' HB HS) (S_here b') (whole_clo f ty' us b' W) ty' c SC) as [H1 H2].
    split; [|exact H2]. intros o Ho. apply in_app_or in Ho as [Ho|Ho]; [apply H1; exact Ho|]. apply in_map_iff in Ho as ((p, x) & <- & Hu).
    split; [exact H2|]. exists own. exact (St_captured n own ty b f ty' us b' p x HB HS Hu).
  - rewrite met_stm, after_stm. apply list_fine; [|exact SC]. intros k Hk g' c' SC'. apply (IH k Hk n own ty b HB); [|exact (whole_stm l W k Hk)|exact SC'].
    apply (same_trans _ _ _ HS). apply (S_stm l k k Hk), S_here.
  - destruct (whole_exp c0 e W) as [-> W']. rewrite met_exp, after_exp. apply (IH n own ty b HB); [|exact W'|exact SC]. apply (same_trans _ _ _ HS), S_exp, S_here.
  - destruct (whole_ret c0 e W) as [-> W']. rewrite met_ret, after_ret. apply (IH n own ty b HB); [|exact W'|].
    + apply (same_trans _ _ _ HS), S_ret, S_here.
    + unfold returns. destruct own; [exact SC|]. destruct (snd (mark (Of f) e g)); [exact SC|exists ty, b; exact HB].
  - rewrite met_fn, after_fn. pose proof (B_function n own ty b c0 f ty' b' HB HS) as HB'.
    apply (IH n (Of f) ty' b' HB' (S_here b') (whole_fn c0 f ty' b' W)). exists ty', b'. exact HB'.
Qed.
Lemma top_fine : forall k n own ty b, Body n own ty b -> Same b k -> parsed true k -> forall g o, In o (top own k g) -> fine n o.
Proof.
  induction k as [p x|l IH|c0 e IH|c0 p x e IH|f ty' us b' IH|l IH|c0 e IH|c0 e IH|c0 f ty' b' IH] using nd_ind'; intros n own ty b HB HS P g o Ho.
  - discriminate P.
  - destruct P as [P _]. discriminate.
  - destruct P as [P _]. discriminate.
  - destruct P as [P _]. discriminate.
  - destruct P as [P _]. discriminate.
  - apply parsed_stm in P as [_ P].
    assert (H : forall k, In k l -> forall g o, In o (top own k g) -> fine n o).
    { intros k Hk g' o' Ho'. apply (IH k Hk n own ty b HB (same_trans _ _ _ HS (S_stm l k k Hk (S_here k))) (P k Hk) g' o' Ho'). }
    clear IH P HS. unfold top in Ho. rewrite mark_stm in Ho. cbn [fst useBuilder] in Ho. revert g Ho. induction l as [|k r IHr]; intros g Ho; [destruct Ho|].
    rewrite marks_cons in Ho. cbn [fst flat_map] in Ho. apply in_app_or in Ho as [Ho|Ho]; [exact (H k (or_introl eq_refl) g o Ho)|].
    exact (IHr (fun j Hj => H j (or_intror Hj)) _ Ho).
  - rewrite top_exp in Ho. destruct P as (_ & _ & P). refine (proj1 (met_fine e n own ty b HB (same_trans _ _ _ HS (S_exp c0 _ _ (S_here e))) (wh _ _ P) g own _) o Ho).
    exists ty, b. exact HB.
  - rewrite top_ret in Ho. destruct P as (_ & _ & P). refine (proj1 (met_fine e n own ty b HB (same_trans _ _ _ HS (S_ret c0 _ _ (S_here e))) (wh _ _ P) g own _) o Ho).
    exists ty, b. exact HB.
  - rewrite top_fn in Ho. destruct P as (_ & _ & P). exact (IH n (Of f) ty' b' (B_function n own ty b c0 f ty' b' HB HS) (S_here b') P ty' o Ho).
Qed.
Lemma occurrences_fine : forall n o, parsed true n -> In o (occurrences n) -> fine n o.
Proof. intros n o P Ho. exact (top_fine n n File false n (B_file n) (S_here n) P false o Ho). Qed.

Lemma places_met : forall k own g c, whole k -> map op (met own k g c) = places k.
Proof.
  assert (L : forall own l, (forall k, In k l -> forall g c, map op (met own k g c) = places k) -> forall g c,
    map op (mets own l g c) = (fix go (l : list nd) : list nat := match l with [] => [] | k :: r => places k ++ go r end) l).
  { induction l as [|k r IH]; intros H g c; [reflexivity|]. unfold mets. rewrite marks_cons. cbn [fst]. rewrite walks_cons. cbn [fst].
    rewrite map_app. f_equal; [exact (H k (or_introl eq_refl) g c)|]. apply IH. intros j Hj. apply H. right. exact Hj. }
  induction k as [p x|l IH|c0 e IH|c0 p x e IH|f ty' us b' IH|l IH|c0 e IH|c0 e IH|c0 f ty' b' IH] using nd_ind'; intros own g c W.
  - reflexivity.
  - rewrite met_op. apply L. intros k Hk g' c'. exact (IH k Hk own g' c' (whole_op l W k Hk)).
  - rewrite met_arg. exact (IH own g own (whole_arg c0 e W)).
  - rewrite met_asg. cbn [map op places]. f_equal. exact (IH own g own (whole_asg c0 p x e W)).
  - rewrite met_clo, map_app, map_map. cbn [places]. f_equal. exact (IH (Of f) ty' c (whole_clo f ty' us b' W)).
  - rewrite met_stm. apply L. intros k Hk g' c'. exact (IH k Hk own g' c' (whole_stm l W k Hk)).
  - destruct (whole_exp c0 e W) as [-> W']. rewrite met_exp. exact (IH own g c W').
  - destruct (whole_ret c0 e W) as [-> W']. rewrite met_ret. exact (IH own g _ W').
  - rewrite met_fn. exact (IH (Of f) ty' (Of f) (whole_fn c0 f ty' b' W)).
Qed.
Lemma places_top : forall k own g, parsed true k -> map op (top own k g) = places k.
Proof.
  induction k as [p x|l IH|c0 e IH|c0 p x e IH|f ty' us b' IH|l IH|c0 e IH|c0 e IH|c0 f ty' b' IH] using nd_ind'; intros own g P.
  - discriminate P.
  - destruct P as [P _]. discriminate.
  - destruct P as [P _]. discriminate.
  - destruct P as [P _]. discriminate.
  - destruct P as [P _]. discriminate.
  - apply parsed_stm in P as [_ P].
    assert (H : forall k, In k l -> forall g, map op (top own k g) = places k) by (intros k Hk g'; exact (IH k Hk own g' (P k Hk))).
    clear IH P. unfold top. rewrite mark_stm. cbn [fst useBuilder places]. revert g. induction l as [|k r IHr]; intros g; [reflexivity|].
    rewrite marks_cons. cbn [fst flat_map]. rewrite map_app. f_equal; [exact (H k (or_introl eq_refl) g)|]. apply IHr. intros j Hj. apply H. right. exact Hj.
  - rewrite top_exp. destruct P as (_ & _ & P). exact (places_met e own g own (wh _ _ P)).
  - rewrite top_ret. destruct P as (_ & _ & P). exact (places_met e own g own (wh _ _ P)).
  - rewrite top_fn. destruct P as (_ & _ & P). exact (IH (Of f) ty' P).
Qed.
Lemma unique : forall n o o', parsed true n -> NoDup (places n) -> In o (occurrences n) -> In o' (occurrences n) -> op o = op o' -> o = o'.
Proof.
  intros n o o' P N Ho Ho' E. unfold occurrences in *. fold (top File n false) in *. rewrite <- (places_top n File false P) in N.
  revert N Ho Ho'. generalize (top File n false). induction l as [|a r IH]; intros N Ho Ho'; [destruct Ho|].
  cbn [map] in N. apply NoDup_cons_iff in N as [N1 N2]. destruct Ho as [->|Ho], Ho' as [->|Ho'].
  - reflexivity.
  - exfalso. apply N1. rewrite E. apply in_map. exact Ho'.
  - exfalso. apply N1. rewrite <- E. apply in_map. exact Ho.
  - exact (IH N2 Ho Ho').
Qed.
Lemma stands_met : forall n s x p k, parsed true n -> Stands n s x p k -> exists o, In o (occurrences n) /\ op o = p /\ ox o = x /\ ok o = k.
Proof.
  intros n s x p k P H. destruct H as [s ty b p x HB HS|s ty b c p x e HB HS|s ty b f ty' us b' p x HB HS Hu];
  pose proof (body_parsed _ _ _ _ HB P) as PB; destruct (same_any _ _ HS _ PB) as [s' PA].
  - assert (s' = false) by exact PA. subst s'. destruct (part_met n s ty b _ (body_found _ _ _ _ HB P) PB HS PA) as (g & c & H).
    eexists. split; [apply H; left; reflexivity|]. auto.
  - assert (s' = false) by exact (proj1 PA). subst s'. destruct (part_met n s ty b _ (body_found _ _ _ _ HB P) PB HS PA) as (g & c' & H).
    rewrite met_asg in H. eexists. split; [apply H; left; reflexivity|]. auto.
  - assert (s' = false) by exact (proj1 PA). subst s'. destruct (part_met n s ty b _ (body_found _ _ _ _ HB P) PB HS PA) as (g & c & H).
    rewrite met_clo in H. eexists. split; [apply H, in_or_app; right; apply in_map_iff; exists (p, x); split; [reflexivity|exact Hu]|]. auto.
Qed.

(** ** Without closures *)
Lemma early_same : forall n m, Early n m -> Same n m.
Proof.
  induction 1 as [n|l1 k l2 m _ _ IH|l1 k l2 m _ _ IH|c e m _ IH|c p x e m _ IH|c e m _ IH|c e m _ IH].
  - constructor.
  - apply (S_op _ k m); [apply in_elt|exact IH].
  - apply (S_stm _ k m); [apply in_elt|exact IH].
  - apply S_arg. exact IH.
  - apply S_asg. exact IH.
  - apply S_exp. exact IH.
  - apply S_ret. exact IH.
Qed.
Lemma statement_same : forall n k, Statement n k -> Same n k.
Proof. induction 1 as [n|l k m Hk _ IH]; [constructor|exact (S_stm l k m Hk IH)]. Qed.
Lemma plain_body : forall n s b, Plain n s b -> exists ty, Body n s ty b.
Proof.
  induction 1 as [|s b c f ty b' _ [ty0 IH] HS]; [exists false; constructor|]. exists ty. exact (B_function n s ty0 b c f ty b' IH (statement_same _ _ HS)).
Qed.
Lemma right_same : forall n s m, Right n s m -> exists ty b, Body n s ty b /\ Same b m.
Proof.
  intros n s m H. destruct H as [s ty b c e m HB HS HE|s ty b c p x e HB HS|s ty b c p x e m HB HS HE|f b c e m HB U HS HE|s b c e m HP HS HE|s ty b c f ty' b' m HB HS HE].
  - exists ty, b. split; [exact HB|]. apply (same_trans _ _ _ HS), S_arg, early_same, HE.
  - exists ty, b. auto.
  - exists ty, b. split; [exact HB|]. apply (same_trans _ _ _ HS), S_asg, early_same, HE.
  - exists false, b. split; [exact HB|]. apply (same_trans _ _ _ HS), S_ret, early_same, HE.
  - destruct (plain_body n s b HP) as [ty HB]. exists ty, b. split; [exact HB|]. destruct HS as [HS|HS]; apply statement_same in HS; apply (same_trans _ _ _ HS).
    + apply S_exp, early_same, HE.
    + apply S_ret, early_same, HE.
  - exists ty', b'. split; [exact (B_function n s ty b c f ty' b' HB HS)|apply early_same; exact HE].
Qed.
Lemma quiet_early : forall n m, Same n m -> quiet n -> Early n m.
Proof.
  induction 1 as [n|l k m Hk HS IH|l k m Hk HS IH|c e m HS IH|c p x e m HS IH|c e m HS IH|c e m HS IH]; intros Q.
  - constructor.
  - assert (QA : forall j, In j l -> quiet j) by (intros j Hj i Hi; exact (Q i (S_op l j i Hj Hi))).
    apply in_split in Hk as (l1 & l2 & ->). apply E_op; [intros j Hj; apply QA, in_or_app; left; exact Hj|]. apply IH, QA, in_elt.
  - assert (QA : forall j, In j l -> quiet j) by (intros j Hj i Hi; exact (Q i (S_stm l j i Hj Hi))).
    apply in_split in Hk as (l1 & l2 & ->). apply E_stm; [intros j Hj; apply QA, in_or_app; left; exact Hj|]. apply IH, QA, in_elt.
  - apply E_arg, IH. intros j Hj. exact (Q j (S_arg c e j Hj)).
  - apply E_asg, IH. intros j Hj. exact (Q j (S_asg c p x e j Hj)).
  - apply E_exp, IH. intros j Hj. exact (Q j (S_exp c e j Hj)).
  - apply E_ret, IH. intros j Hj. exact (Q j (S_ret c e j Hj)).
Qed.
Lemma same_expression : forall n m, Same n m -> parsed true n -> parsed false m -> exists c e, (Statement n (Exp c e) \/ Statement n (Ret c e)) /\ Same e m /\ parsed false e.
Proof.
  induction 1 as [n|l k m Hk HS IH|l k m Hk HS IH|c0 e m HS IH|c0 p x e m HS IH|c0 e m HS IH|c0 e m HS IH]; intros P PM.
  - exfalso. exact (parsed_one n P PM).
  - destruct P as [P _]. discriminate.
  - apply parsed_stm in P as [_ P]. destruct (IH (P k Hk) PM) as (c & e & [H|H] & H1 & H2); exists c, e; (split; [|auto]); [left|right]; exact (Sm_stm l k _ Hk H).
  - destruct P as [P _]. discriminate.
  - destruct P as [P _]. discriminate.
  - destruct P as (_ & _ & P). exists c0, e. split; [left; constructor|auto].
  - destruct P as (_ & _ & P). exists c0, e. split; [right; constructor|auto].
Qed.
Lemma no_closures : forall n s ty b, Body n s ty b -> parsed true n -> noClosures n -> Plain n s b.
Proof.
  intros n s ty b H P NC. induction H as [|s ty b f ty' us b' HB IH HS|s ty b c f ty' b' HB IH HS].
  - constructor.
  - exfalso. exact (NC s ty b f ty' us b' HB HS).
  - pose proof (body_parsed _ _ _ _ HB P) as PB. destruct (same_parts b _ HS PB) as [H1|(e & We & H1 & _)].
    + exact (Pl_function n s b c f ty' b' IH H1).
    + exfalso. apply same_expr in H1; [|exact We]. destruct H1 as [H1 _]. discriminate.
Qed.
Lemma without_closures : forall n s ty b m, Body n s ty b -> Same b m -> parsed false m -> parsed true n -> noClosures n -> Right n s m.
Proof.
  intros n s ty b m HB HS PM P NC. pose proof (body_parsed _ _ _ _ HB P) as PB.
  destruct (same_expression b m HS PB PM) as (c & e & H & HE & PE).
  apply (R_outside n s b c e m (no_closures n s ty b HB P NC) H). apply (quiet_early e m HE). intros j Hj. destruct j; try exact I.
  - refine (NC s ty b f typed us j HB _). destruct H as [H|H]; apply statement_same in H; apply (same_trans _ _ _ H).
    + apply S_exp, Hj.
    + apply S_ret, Hj.
  - apply same_expr in Hj; [|exact PE]. destruct Hj as [Hj _]. discriminate.
Qed.
Lemma quiet_after2 : forall n own g c, whole n -> quiet n -> after own n g c = own \/ after own n g c = c.
Proof.
  induction n as [p x|l IH|c0 e IH|c0 p x e IH|f ty us b IH|l IH|c0 e IH|c0 e IH|c0 f ty b IH] using nd_ind'; intros own g c W Q.
  - right. reflexivity.
  - rewrite after_op. assert (H : forall k, In k l -> forall g c, after own k g c = own \/ after own k g c = c).
    { intros k Hk g' c'. apply IH; [exact Hk|exact (whole_op l W k Hk)|]. intros m Hm. apply Q. apply (S_op l k m Hk Hm). }
    clear IH Q W. revert g c. induction l as [|k r IHr]; intros g c; [right; reflexivity|]. unfold afters. rewrite marks_cons. cbn [fst].
    rewrite walks_cons. cbn [snd]. fold (after own k g c). destruct (IHr (fun j Hj => H j (or_intror Hj)) (snd (mark own k g)) (after own k g c)) as [E|E]; unfold afters in E; rewrite E; [left; reflexivity|].
    apply H. left. reflexivity.
  - rewrite after_arg. left. apply quiet_after; [exact (whole_arg c0 e W)|]. intros m Hm. apply Q. apply S_arg. exact Hm.
  - rewrite after_asg. left. apply quiet_after; [exact (whole_asg c0 p x e W)|]. intros m Hm. apply Q. apply S_asg. exact Hm.
  - exfalso. exact (Q _ (S_here _)).
  - rewrite after_stm. assert (H : forall k, In k l -> forall g c, after own k g c = own \/ after own k g c = c).
    { intros k Hk g' c'. apply IH; [exact Hk|exact (whole_stm l W k Hk)|]. intros m Hm. apply Q. apply (S_stm l k m Hk Hm). }
    clear IH Q W. revert g c. induction l as [|k r IHr]; intros g c; [right; reflexivity|]. unfold afters. rewrite marks_cons. cbn [fst].
    rewrite walks_cons. cbn [snd]. fold (after own k g c). destruct (IHr (fun j Hj => H j (or_intror Hj)) (snd (mark own k g)) (after own k g c)) as [E|E]; unfold afters in E; rewrite E; [left; reflexivity|].
    apply H. left. reflexivity.
  - destruct (whole_exp c0 e W) as [-> W']. rewrite after_exp. apply IH; [exact W'|]. intros m Hm. apply Q. apply S_exp. exact Hm.
  - destruct (whole_ret c0 e W) as [-> W']. rewrite after_ret.
    assert (QE : quiet e) by (intros m Hm; apply Q, S_ret, Hm). unfold returns. destruct own as [|f]; [apply IH; assumption|].
    destruct (snd (mark (Of f) e g)); [apply IH; assumption|]. left. apply quiet_after; assumption.
  - exfalso. exact (Q _ (S_here _)).
Qed.

(** ** Uses *)
Section Uses.
Variable find : scope -> nat -> nat -> option nat.
Variable around : scope -> nat -> option nat.
Lemma uses_in : forall n x p t, In (p, x, t) (uses find around n) <-> exists o, In o (occurrences n) /\ In (p, x, t) (report find around o).
Proof. intros. unfold uses. rewrite in_flat_map. reflexivity. Qed.
Lemma report_read : forall o p x t, ok o = Read -> In (p, x, t) (report find around o) <->
  p = op o /\ x = ox o /\ t = find (os o) (ox o) (op o) /\ t <> Some (op o).
Proof.
  intros o p x t K. unfold report. rewrite K. destruct (find (os o) (ox o) (op o)) as [q|] eqn:F.
  - destruct (Nat.eqb_spec q (op o)) as [->|N]; cbn [In]; split.
    + intros [].
    + intros (_ & _ & -> & H). contradiction.
    + intros [E|[]]. injection E as <- <- <-. repeat split. intros E. injection E as ->. contradiction.
    + intros (-> & -> & -> & _). left. reflexivity.
  - cbn [In]. split.
    + intros [E|[]]. injection E as <- <- <-. repeat split. discriminate.
    + intros (-> & -> & -> & _). left. reflexivity.
Qed.
Lemma report_target : forall o p x t, ok o = Target -> In (p, x, t) (report find around o) <->
  p = op o /\ x = ox o /\ t = find (os o) (ox o) (op o) /\ exists q, t = Some q /\ q < op o.
Proof.
  intros o p x t K. unfold report. rewrite K. destruct (find (os o) (ox o) (op o)) as [q|] eqn:F.
  - destruct (Nat.ltb_spec q (op o)) as [L|L]; cbn [In]; split.
    + intros [E|[]]. injection E as <- <- <-. repeat split. exists q. auto.
    + intros (-> & -> & -> & _). left. reflexivity.
    + intros [].
    + intros (_ & _ & E & q' & E' & L'). rewrite E in E'. injection E' as ->. lia.
  - cbn [In]. split; [intros []|]. intros (_ & _ & E & q' & E' & _). rewrite E in E'. discriminate.
Qed.
Lemma report_captured : forall o p x t, ok o = Captured -> In (p, x, t) (report find around o) <-> p = op o /\ x = ox o /\ t = around (os o) (ox o).
Proof.
  intros o p x t K. unfold report. rewrite K. cbn [In]. split.
  - intros [E|[]]. injection E as <- <- <-. auto.
  - intros (-> & -> & ->). left. reflexivity.
Qed.
Lemma report_place : forall o p x t, In (p, x, t) (report find around o) -> p = op o /\ x = ox o.
Proof.
  intros o p x t H. destruct (ok o) eqn:K.
  - apply (report_read o p x t K) in H as (H1 & H2 & _). auto.
  - apply (report_target o p x t K) in H as (H1 & H2 & _). auto.
  - apply (report_captured o p x t K) in H as (H1 & H2 & _). auto.
Qed.
Lemma uses_of : forall n o t, parsed true n -> NoDup (places n) -> In o (occurrences n) ->
  (In (op o, ox o, t) (uses find around n) <-> In (op o, ox o, t) (report find around o)).
Proof.
  intros n o t P N Ho. rewrite uses_in. split.
  - intros (o' & Ho' & H). destruct (report_place _ _ _ _ H) as [E _]. pose proof (unique n o o' P N Ho Ho' E) as ->. exact H.
  - intros H. exists o. auto.
Qed.

Lemma read_right : forall n s p x t, parsed true n -> NoDup (places n) -> Right n s (Var p x) ->
  (In (p, x, t) (uses find around n) <-> t = find s x p /\ t <> Some p).
Proof.
  intros n s p x t P N R. destruct (right_met n s _ P R eq_refl) as [g H].
  assert (Ho : In {| op := p; ox := x; ok := Read; os := s |} (occurrences n)) by (apply H; left; reflexivity).
  pose proof (uses_of n _ t P N Ho) as U. cbn [op ox] in U. rewrite U. rewrite report_read by reflexivity. cbn [op ox os]. tauto.
Qed.
Lemma target_right : forall n s c p x e t, parsed true n -> NoDup (places n) -> Right n s (Asg c p x e) ->
  (In (p, x, t) (uses find around n) <-> t = find s x p /\ exists q, t = Some q /\ q < p).
Proof.
  intros n s c p x e t P N R.
  destruct (right_same n s _ R) as (ty & b & HB & HS). destruct (same_any _ _ HS _ (body_parsed _ _ _ _ HB P)) as [s' PA].
  assert (s' = false) by exact (proj1 PA). subst s'.
  destruct (right_met n s _ P R PA) as [g H]. rewrite met_asg in H.
  assert (Ho : In {| op := p; ox := x; ok := Target; os := s |} (occurrences n)) by (apply H; left; reflexivity).
  pose proof (uses_of n _ t P N Ho) as U. cbn [op ox] in U. rewrite U. rewrite report_target by reflexivity. cbn [op ox os]. tauto.
Qed.
Lemma captured_right : forall n s f ty us b p x t, parsed true n -> NoDup (places n) -> Right n s (Clo f ty us b) -> quiet b -> In (p, x) us ->
  In (p, x, t) (uses find around n) -> t = around (Of f) x \/ t = around s x.
Proof.
  intros n s f ty us b p x t P N R Q Hu HI.
  destruct (right_same n s _ R) as (ty0 & b0 & HB & HS). destruct (same_any _ _ HS _ (body_parsed _ _ _ _ HB P)) as [s' PA].
  assert (s' = false) by exact (proj1 PA). subst s'.
  destruct (right_met n s _ P R PA) as [g H]. rewrite met_clo in H.
  assert (Ho : In {| op := p; ox := x; ok := Captured; os := after (Of f) b ty s |} (occurrences n)).
  { apply H, in_or_app. right. apply in_map_iff. exists (p, x). auto. }
  pose proof (uses_of n _ t P N Ho) as U. cbn [op ox] in U. apply (proj1 U) in HI. apply report_captured in HI; [|reflexivity]. cbn [os] in HI.
  destruct HI as (_ & _ & ->). destruct (quiet_after2 b (Of f) ty s (whole_clo _ _ _ _ (wh _ _ PA)) Q) as [E|E]; rewrite E; auto.
Qed.
Lemma uses_stand : forall n p x t, parsed true n -> In (p, x, t) (uses find around n) -> exists s k, Stands n s x p k.
Proof.
  intros n p x t P H. apply uses_in in H as (o & Ho & H). destruct (report_place _ _ _ _ H) as [-> ->].
  destruct (occurrences_fine n o P Ho) as [_ [s HS]]. exists s, (ok o). exact HS.
Qed.
Lemma read_somewhere : forall n s x p, parsed true n -> NoDup (places n) -> Stands n s x p Read ->
  exists g, isScope n g /\ forall t, In (p, x, t) (uses find around n) <-> t = find g x p /\ t <> Some p.
Proof.
  intros n s x p P N H. destruct (stands_met n s x p Read P H) as (o & Ho & E1 & E2 & E3). subst p x.
  exists (os o). split; [exact (proj1 (occurrences_fine n o P Ho))|]. intros t. rewrite (uses_of n o t P N Ho). rewrite (report_read o _ _ t E3). tauto.
Qed.
Lemma captured_somewhere : forall n s x p, parsed true n -> NoDup (places n) -> Stands n s x p Captured ->
  exists g, isScope n g /\ forall t, In (p, x, t) (uses find around n) <-> t = around g x.
Proof.
  intros n s x p P N H. destruct (stands_met n s x p Captured P H) as (o & Ho & E1 & E2 & E3). subst p x.
  exists (os o). split; [exact (proj1 (occurrences_fine n o P Ho))|]. intros t. rewrite (uses_of n o t P N Ho). rewrite (report_captured o _ _ t E3). tauto.
Qed.
End Uses.
