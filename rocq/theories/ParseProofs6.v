(** Errors in a closure that is an argument: what is not reported. *)
From Coq Require Import List Bool NArith ZArith Lia Arith.
From Verif Require Import Chars LexModel ParseModel ParseSpec ParseProofs.
Import ListNotations.
Open Scope nat_scope.

(** Parsers whose recoveries stop at the same tokens do the same. *)
Lemma skipTo_ext : forall p q, (forall k, p k = q k) -> forall l s, skipTo p l s = skipTo q l s.
Proof. intros p q E. induction l as [|k r IH]; intros s; [reflexivity|]. cbn. rewrite E. destruct (q k); [reflexivity|apply IH]. Qed.
Lemma run_ext : forall g h, unblocks g = unblocks h -> (forall n k, resync g n k = resync h n k) ->
  forall f i s, run g f i s = run h f i s.
Proof.
  intros g h U E. induction f as [|f IH]; intros i s; [reflexivity|]. destruct i; cbn [run]; try reflexivity.
  - now rewrite IH.
  - rewrite IH. destruct (run h f i1 s) as [[t1 s1|s1]|]; [|reflexivity..]. now rewrite IH.
  - destruct (test i1 s); apply IH.
  - apply IH.
  - rewrite IH. destruct (mem _ _); [|reflexivity]. destruct (run h f i s) as [[t1 s1|s1]|]; [|reflexivity..]. now rewrite IH.
  - rewrite IH. destruct (run h f i s) as [[t1 s1|s1]|]; [|reflexivity..]. now rewrite IH.
  - rewrite IH. destruct (run h f i1 _) as [[t1 s1|s1]|]; [reflexivity|apply IH|reflexivity].
  - rewrite U, IH. destruct (run h f (IN n) _) as [[t1 s1|s1]|]; [reflexivity| |reflexivity].
    unfold recover. now rewrite (skipTo_ext _ _ (E n)).
  - rewrite IH. destruct (run h f i s) as [[t1 s1|s1]|]; [|reflexivity..]. now rewrite IH.
  - rewrite IH. destruct (run h f i s) as [[t1 s1|s1]|]; [|reflexivity..]. now rewrite IH.
Qed.
Lemma parseFile_ext : forall g h, unblocks g = unblocks h -> (forall n k, resync g n k = resync h n k) ->
  forall f ts, parseFile g f ts = parseFile h f ts.
Proof. intros g h U E f ts. unfold parseFile. now rewrite (run_ext g h U E). Qed.

(** Which tokens can stand at the beginning and at the end of a part, and whether it can be empty. *)
Definition fact := (bool * N * N)%type.
Definition nulF (a : fact) : bool := fst (fst a).
Definition fstF (a : fact) : N := snd (fst a).
Definition lstF (a : fact) : N := snd a.
Definition seqF (a b : fact) : fact :=
  (nulF a && nulF b,
   N.lor (fstF a) (if nulF a then fstF b else 0%N),
   N.lor (lstF b) (if nulF b then lstF a else 0%N)).
Definition altF (a b : fact) : fact := (nulF a || nulF b, N.lor (fstF a) (fstF b), N.lor (lstF a) (lstF b)).
Definition tokF (k : Tok) : fact := (false, single k, single k).
Definition noneF : fact := (true, 0%N, 0%N).
Definition botF : fact := (false, 0%N, 0%N).
Fixpoint factT (t : list fact) (i : item) : fact :=
  match i with
  | IT k => tokF k
  | IN n | IRecover n => nth (ntId n) t botF
  | IEps | IAct _ | IPeek _ => noneF
  | IFail => botF
  | ISeq a b => seqF (factT t a) (factT t b)
  | IAlt a b | IRollback a b => altF (factT t a) (factT t b)
  | ICond _ a | ILoop a _ | ILoopAgain a _ => factT t a
  | IStar a => altF noneF (factT t a)
  | IList a sep _ =>
      let x := factT t a in
      (nulF x, N.lor (fstF x) (if nulF x then single sep else 0%N), N.lor (lstF x) (single sep))
  end.
Definition factTab : list fact :=
  Eval vm_compute in Nat.iter 60 (fun t => map (fun n => factT t (rule n)) allNT) (map (fun _ => botF) allNT).
Definition factOf : item -> fact := factT factTab.

(** [x] is never followed by [y]. *)
Definition apart (x y : Tok) (a b : fact) : bool := negb (mem x (lstF a) && mem y (fstF b)).
Fixpoint never (x y : Tok) (i : item) : bool :=
  match i with
  | ISeq a b => never x y a && never x y b && apart x y (factOf a) (factOf b)
  | IAlt a b | IRollback a b => never x y a && never x y b
  | ICond _ a | ILoop a _ | ILoopAgain a _ => never x y a
  | IStar a => never x y a && apart x y (factOf a) (factOf a)
  | IList a sep _ =>
      never x y a && apart x y (factOf a) (tokF sep) && apart x y (tokF sep) (factOf i)
  | _ => true
  end.

Fixpoint pairIn (x y : Tok) (l : list Tok) : Prop :=
  match l with
  | a :: ((b :: _) as r) => (a = x /\ b = y) \/ pairIn x y r
  | _ => False
  end.
Lemma pairIn_app : forall x y l m, pairIn x y (l ++ m) ->
  pairIn x y l \/ pairIn x y m \/ (l <> [] /\ m <> [] /\ last l T_EOF = x /\ hd T_EOF m = y).
Proof.
  intros x y. induction l as [|a l IH]; intros m H; [now right; left|].
  destruct l as [|b l].
  - cbn [app] in H. destruct m as [|c m]; [contradiction|]. destruct H as [[-> ->]|H]; [|now right; left].
    right. right. repeat split; discriminate.
  - cbn [app] in H. destruct H as [H|H]; [left; now left|].
    destruct (IH m H) as [A|[A|(_ & B & C & D)]]; [left; right; exact A|now right; left|].
    right. right. repeat split; [discriminate|exact B|exact C|exact D].
Qed.

Definition toks (ts : list tree) : list Tok := map fst (flat_map leaves ts).
Lemma toks_app : forall a b, toks (a ++ b) = toks a ++ toks b.
Proof. intros. unfold toks. now rewrite flat_map_app, map_app. Qed.
Definition fits (a : fact) (l : list Tok) : Prop :=
  match l with
  | [] => nulF a = true
  | k :: _ => mem k (fstF a) = true /\ mem (last l T_EOF) (lstF a) = true
  end.
Lemma fits_seq : forall a b l m, fits a l -> fits b m -> fits (seqF a b) (l ++ m).
Proof.
  intros [[na fa] la] [[nb fb] lb] l m A B.
  destruct l as [|k l]; destruct m as [|j m]; cbn [app fits] in *; cbv [nulF fstF lstF seqF fst snd] in *; rewrite ?mem_lor.
  - now rewrite A, B.
  - destruct B as [B1 B2]. rewrite A. try cbv iota. rewrite B1, B2. rewrite orb_true_r. auto.
  - destruct A as [A1 A2]. rewrite app_nil_r, A1. rewrite B. try cbv iota. rewrite A2. rewrite orb_true_r. auto.
  - destruct A as [A1 A2], B as [B1 B2]. rewrite A1. split; [reflexivity|].
    replace (last (k :: l ++ j :: m) T_EOF) with (last (j :: m) T_EOF); [now rewrite B2|].
    clear. change (k :: l ++ j :: m) with ((k :: l) ++ j :: m). generalize (k :: l). intros p.
    induction p as [|x p IH]; [reflexivity|]. cbn [app]. rewrite IH. destruct p; reflexivity.
Qed.
Lemma fits_sub : forall a b l, fits a l -> implb (nulF a) (nulF b) = true -> 
  (forall k, mem k (fstF a) = true -> mem k (fstF b) = true) -> (forall k, mem k (lstF a) = true -> mem k (lstF b) = true) -> fits b l.
Proof.
  intros a b l H N F L. destruct l; cbn in *; [rewrite H in N; exact N|]. destruct H. auto.
Qed.
Lemma fits_altl : forall a b l, fits a l -> fits (altF a b) l.
Proof.
  intros [[na fa] la] [[nb fb] lb] l H. eapply fits_sub; [exact H| | |]; cbv [altF nulF fstF lstF fst snd].
  - now destruct na.
  - intros k M. now rewrite mem_lor, M.
  - intros k M. now rewrite mem_lor, M.
Qed.
Lemma fits_altr : forall a b l, fits b l -> fits (altF a b) l.
Proof.
  intros [[na fa] la] [[nb fb] lb] l H. eapply fits_sub; [exact H| | |]; cbv [altF nulF fstF lstF fst snd].
  - destruct nb; [apply orb_true_r|reflexivity].
  - intros k M. rewrite mem_lor, M. apply orb_true_r.
  - intros k M. rewrite mem_lor, M. apply orb_true_r.
Qed.
(** Starts and lists, as facts. *)
Lemma fits_more : forall a l m, fits a l -> fits (altF noneF a) m -> fits (altF noneF a) (l ++ m).
Proof.
  intros [[na fa] la] l m A B. destruct l as [|k l]; [exact B|]. destruct m as [|j m]; [rewrite app_nil_r; now apply fits_altr|].
  eapply fits_sub; [exact (fits_seq _ _ _ _ A B)| | |]; cbv [seqF altF noneF nulF fstF lstF fst snd].
  - now destruct na.
  - intros x. rewrite !mem_lor, mem_0. destruct na; rewrite ?mem_lor, ?mem_0; destruct (mem x fa); cbn; congruence.
  - intros x. cbn [orb]. rewrite !mem_lor, mem_0. destruct (mem x la); cbn; congruence.
Qed.
Definition listF (a : fact) (sep : Tok) : fact :=
  (nulF a, N.lor (fstF a) (if nulF a then single sep else 0%N), N.lor (lstF a) (single sep)).
Lemma fits_last : forall a sep l, fits a l -> fits (listF a sep) l.
Proof.
  intros [[na fa] la] sep l H. eapply fits_sub; [exact H| | |]; cbv [listF nulF fstF lstF fst snd].
  - now destruct na.
  - intros k M. now rewrite mem_lor, M.
  - intros k M. now rewrite mem_lor, M.
Qed.
Lemma fits_tok : forall k, fits (tokF k) [k].
Proof. intros k. unfold fits. cbv [tokF fstF lstF fst snd]. cbn [last]. rewrite mem_single, teq_refl. auto. Qed.
Lemma fits_trailing : forall a sep l, fits a l -> fits (listF a sep) (l ++ [sep]).
Proof.
  intros [[na fa] la] sep l H. eapply fits_sub; [exact (fits_seq _ _ _ _ H (fits_tok sep))| | |]; cbv [tokF seqF listF nulF fstF lstF fst snd].
  - now rewrite andb_false_r.
  - auto.
  - intros x. rewrite !mem_lor, mem_0. rewrite orb_false_r. intros ->. apply orb_true_r.
Qed.
Lemma fits_next : forall a sep l m, fits a l -> fits (listF a sep) m -> fits (listF a sep) (l ++ [sep] ++ m).
Proof.
  intros [[na fa] la] sep l m A B. eapply fits_sub; [exact (fits_seq _ _ _ _ A (fits_seq _ _ _ _ (fits_tok sep) B))| | |]; cbv [tokF seqF listF nulF fstF lstF fst snd].
  - now rewrite andb_false_r.
  - intros x. rewrite !mem_lor. destruct na; rewrite ?mem_lor, ?mem_0; cbn; rewrite ?orb_false_r; auto.
  - intros x. rewrite !mem_lor. destruct na; cbn [andb]; rewrite ?mem_0, ?orb_false_r; destruct (mem x la), (mem x (single sep)); cbn; auto.
Qed.
Lemma factOf_rule : forall n, factOf (IN n) = factOf (rule n).
Proof. destruct n; vm_compute; reflexivity. Qed.

Lemma derives_fits : forall i ts, Derives i ts -> fits (factOf i) (toks ts).
Proof.
  intros i ts H. induction H; unfold factOf in *; cbn [factT] in *; try exact IHDerives.
  - apply fits_tok.
  - pose proof (factOf_rule n) as E. unfold factOf in E. cbn [factT] in E. rewrite E.
    unfold toks. cbn [flat_map leaves]. rewrite app_nil_r. exact IHDerives.
  - reflexivity.
  - rewrite toks_app. now apply fits_seq.
  - now apply fits_altl.
  - now apply fits_altr.
  - reflexivity.
  - rewrite toks_app. now apply fits_more.
  - now apply fits_last.
  - rewrite toks_app. now apply fits_trailing.
  - change (Leaf sep p :: us) with ([Leaf sep p] ++ us). rewrite !toks_app. now apply fits_next.
  - now apply fits_altl.
  - now apply fits_altr.
  - reflexivity.
  - reflexivity.
Qed.

Lemma apart_no : forall x y a b l m, apart x y a b = true -> fits a l -> fits b m ->
  l <> [] -> m <> [] -> last l T_EOF = x -> hd T_EOF m = y -> False.
Proof.
  intros x y a b l m H A B L M X Y. destruct l as [|k l]; [congruence|]. destruct m as [|j m]; [congruence|].
  cbn [fits hd] in *. destruct A as [_ A], B as [B _]. subst x y. unfold apart in H. rewrite A, B in H. discriminate.
Qed.
Lemma derives_never : forall x y, (forall n, never x y (rule n) = true) ->
  forall i ts, Derives i ts -> never x y i = true -> ~ pairIn x y (toks ts).
Proof.
  intros x y NR i ts H. induction H; intros NV; cbn [never] in NV; try (now auto).
  - unfold toks. cbn [flat_map leaves]. rewrite app_nil_r. apply IHDerives. apply NR.
  - apply andb_true_iff in NV as [NV N3]. apply andb_true_iff in NV as [N1 N2]. rewrite toks_app. intros P.
    apply pairIn_app in P as [P|[P|(A & B & C & D)]]; [now apply IHDerives1|now apply IHDerives2|].
    exact (apart_no _ _ _ _ _ _ N3 (derives_fits _ _ H) (derives_fits _ _ H0) A B C D).
  - apply andb_true_iff in NV as [N1 N2]. auto.
  - apply andb_true_iff in NV as [N1 N2]. auto.
  - apply andb_true_iff in NV as [N1 N2]. rewrite toks_app. intros P.
    apply pairIn_app in P as [P|[P|(A & B & C & D)]]; [now apply IHDerives1|apply IHDerives2; [cbn [never]; now rewrite N1, N2|exact P]|].
    pose proof (derives_fits _ _ H0) as F. assert (F' : fits (true, fstF (factOf a), lstF (factOf a)) (toks us)).
    { apply (fits_sub _ _ _ F); [apply implb_true_r| |]; intros k; unfold factOf; cbn [factT]; destruct (factT factTab a) as [[na fa] la];
        cbv [altF noneF fstF lstF fst snd]; rewrite mem_lor, mem_0; auto. }
    exact (apart_no _ _ _ (true, fstF (factOf a), lstF (factOf a)) _ _ N2 (derives_fits _ _ H) F' A B C D).
  - apply andb_true_iff in NV as [NV N3]. apply andb_true_iff in NV as [N1 N2]. auto.
  - apply andb_true_iff in NV as [NV N3]. apply andb_true_iff in NV as [N1 N2]. rewrite toks_app. intros P.
    apply pairIn_app in P as [P|[P|(A & B & C & D)]]; [now apply IHDerives|exact P|].
    exact (apart_no _ _ _ _ _ _ N2 (derives_fits _ _ H) (fits_tok sep) A B C D).
  - pose proof NV as NV0. apply andb_true_iff in NV as [NV N3]. apply andb_true_iff in NV as [N1 N2].
    change (Leaf sep p :: us) with ([Leaf sep p] ++ us). rewrite !toks_app. intros P.
    pose proof (derives_fits _ _ H0) as F.
    apply pairIn_app in P as [P|[P|(A & B & C & D)]]; [now apply IHDerives1| |].
    + apply pairIn_app in P as [P|[P|(A & B & C & D)]]; [exact P|now apply IHDerives2|].
      exact (apart_no _ _ _ _ _ _ N3 (fits_tok sep) F A B C D).
    + cbn in D. subst y. destruct (toks ts) as [|k l] eqn:TS; [congruence|].
      eapply (apart_no _ _ _ _ (k :: l) [sep] N2); [rewrite <- TS; apply derives_fits; exact H|apply fits_tok|congruence..|exact C|reflexivity].
  - apply andb_true_iff in NV as [N1 N2]. auto.
  - apply andb_true_iff in NV as [N1 N2]. auto.
Qed.

Lemma assign_brace : forall n, never T_ASSIGN T_RBRACE (rule n) = true.
Proof. destruct n; vm_compute; reflexivity. Qed.

Lemma map_fst_combine : forall (A B : Type) (l : list A) (m : list B), List.length l = List.length m -> map fst (combine l m) = l.
Proof. intros A B. induction l as [|x l IH]; intros [|y m] E; try discriminate; [reflexivity|]. cbn. rewrite IH by (now injection E). reflexivity. Qed.
Lemma no_tree : forall ts, pairIn T_ASSIGN T_RBRACE ts -> forall t, ~ treeOf ts t.
Proof.
  intros ts P t [D L]. pose proof (derives_never _ _ assign_brace _ _ D eq_refl) as N. apply N.
  unfold toks. cbn [flat_map]. rewrite app_nil_r, L, map_fst_combine by (now rewrite seq_length). exact P.
Qed.

(** [<?php f(function() { $a = });] *)
Definition badArgument : list Tok :=
  [T_OPEN_TAG; T_STRING; T_LPAREN; T_FUNCTION; T_LPAREN; T_RPAREN; T_LBRACE; T_VARIABLE; T_ASSIGN; T_RBRACE; T_RPAREN; T_SEMICOLON].
Definition stopsAtBrace (g : Gen) : Gen :=
  {| resync := fun n k => if teq k T_RBRACE then true else resync g n k; unblocks := false |}.
Lemma silent_run : forall g, exists t, parseFile (stopsAtBrace g) 400 badArgument = Some (Accepted t []).
Proof. intros g. eexists. vm_compute. reflexivity. Qed.

Theorem silent : forall g, unblocks g = false -> (forall n, resync g n T_RBRACE = true) ->
  exists t, parseFile g 400 badArgument = Some (Accepted t []) /\ forall t', ~ treeOf badArgument t'.
Proof.
  intros g U R. destruct (silent_run g) as [t H]. exists t. split.
  - rewrite <- H. apply parseFile_ext; [exact U|]. intros n k. cbn. destruct (teq k T_RBRACE) eqn:E; [|reflexivity].
    apply teq_eq in E. subst k. apply R.
  - apply no_tree. cbn. tauto.
Qed.

Lemma parseFile_mono : forall g f f' ts r, f <= f' -> parseFile g f ts = Some r -> parseFile g f' ts = Some r.
Proof.
  intros g f f' ts r L H. unfold parseFile in *. destruct (run g f (rule n_start) (initial ts)) as [x|] eqn:E; [|discriminate].
  rewrite (run_mono _ _ _ _ _ _ L E). exact H.
Qed.
(** [<?php )] and anything behind it *)
Theorem rest_lost : forall g tail, exists ps, forall f, 60 <= f ->
  parseFile g f (T_OPEN_TAG :: T_RPAREN :: tail) = Some (Rejected ps).
Proof.
  intros g tail.
  assert (X : exists ps, parseFile g 60 (T_OPEN_TAG :: T_RPAREN :: tail) = Some (Rejected ps)).
  { eexists. vm_compute. reflexivity. }
  destruct X as [ps X]. exists ps. intros f L. exact (parseFile_mono _ _ _ _ _ L X).
Qed.
