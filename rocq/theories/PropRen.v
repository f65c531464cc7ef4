(** C42: rename. *)
From Verif Require Import Chars RenModel RenSpec RenProofs.
Local Open Scope Z_scope.

(** What a change for range [r] of document [url] must be. *)
Definition changeFor (url : nat) (transform : Range -> Range) (oldName newName : qstring) (r : Range) (c : Change) : Prop :=
  exists r', replaced oldName r r' /\ c = {| chUrl := url; chRange := transform r'; chOld := oldName; chNew := newName |}.

(** C42: if every change is accepted, there is one change per real use of the declaration in the
    tree of contexts, in order. *)
Theorem C42_all_uses accept url transform oldName newName changes c idx l used :
  idx <> intMax -> usesOf c l -> exactly (realUse idx) l used ->
  snd (applyChanges accept url transform oldName newName changes c idx) = true ->
  exists new, fst (applyChanges accept url transform oldName newName changes c idx) = changes ++ new /\
    Forall2 (fun u ch => changeFor url transform oldName newName (uRange u) ch) used new.
Proof.
  intros NI HU HE. rewrite (apply_run accept url transform oldName newName idx c l HU NI changes). intros H.
  eexists. split; [apply run_ok; exact H|].
  rewrite (exactly_fun _ _ _ HE _ (exactly_filter idx l)). clear. induction (filter (realb idx) l) as [|u r IH]; [constructor|].
  cbn [map]. constructor; [|exact IH]. exists (withoutDollar (uRange u) oldName). split; [apply replaced_iff; reflexivity|reflexivity].
Qed.
Print Assumptions C42_all_uses.
(** C42: if one is refused, the changes for the real uses before it have been made and no other. *)
Theorem C42_refused accept url transform oldName newName changes c idx l used :
  idx <> intMax -> usesOf c l -> exactly (realUse idx) l used ->
  snd (applyChanges accept url transform oldName newName changes c idx) = false ->
  exists before u after new ch, used = before ++ u :: after /\
    fst (applyChanges accept url transform oldName newName changes c idx) = changes ++ new /\
    Forall2 (fun u ch => changeFor url transform oldName newName (uRange u) ch) before new /\
    changeFor url transform oldName newName (uRange u) ch /\ accept (changes ++ new) ch = false.
Proof.
  intros NI HU HE. rewrite (apply_run accept url transform oldName newName idx c l HU NI changes). intros H.
  apply run_fail in H as (a & d & b & E & F & G). rewrite F.
  rewrite (exactly_fun _ _ _ HE _ (exactly_filter idx l)). set (f := filter (realb idx) l) in *. clearbody f.
  assert (X : exists before u after, f = before ++ u :: after /\ a = map (changeOf url transform oldName newName) before /\ d = changeOf url transform oldName newName u).
  { clear -E. revert a E. induction f as [|u f IH]; intros a E; [destruct a; discriminate|]. destruct a as [|x a]; cbn in E.
    - injection E as <- _. exists [], u, f. auto.
    - injection E as <- E. destruct (IH a E) as (p & v & q & -> & -> & ->). exists (u :: p), v, q. auto. }
  destruct X as (p & v & q & -> & -> & ->). exists p, v, q. eexists. eexists. split; [reflexivity|]. split; [reflexivity|]. split; [|split; [|exact G]].
  - clear. induction p as [|u r IH]; [constructor|]. cbn [map]. constructor; [|exact IH].
    exists (withoutDollar (uRange u) oldName). split; [apply replaced_iff; reflexivity|reflexivity].
  - exists (withoutDollar (uRange v) oldName). split; [apply replaced_iff; reflexivity|reflexivity].
Qed.
Print Assumptions C42_refused.
(** C42: an unused declaration changes nothing. *)
Theorem C42_unused accept url transform oldName newName changes c :
  applyChanges accept url transform oldName newName changes c intMax = (changes, true).
Proof. destruct c. reflexivity. Qed.
Print Assumptions C42_unused.
(** C42: the declarations: one change for each that is still there. *)
Theorem C42_declarations accept oldName newName changes decls :
  snd (applyChangesToDeclarations accept oldName newName changes decls) = true ->
  exists new, fst (applyChangesToDeclarations accept oldName newName changes decls) = changes ++ new /\
    Forall2 (fun d ch => changeFor (fst d) (fun r => r) oldName newName (snd d) ch) (present decls) new.
Proof.
  rewrite decls_run. intros H. eexists. split; [apply run_ok; exact H|].
  clear. induction (present decls) as [|d r IH]; [constructor|]. cbn [map]. constructor; [|exact IH].
  exists (withoutDollar (snd d) oldName). split; [apply replaced_iff; reflexivity|reflexivity].
Qed.
Print Assumptions C42_declarations.
(** C42: on a use that reads "name" or "$name", the replaced range reads exactly "name", and the
    edit keeps the dollar. *)
Theorem C42_text line r r' name : within line r -> replaced name r r' ->
  (textOf line r = name -> textOf line r' = name /\ forall new, edit line r' new = edit line r new) /\
  (textOf line r = cDOLLAR :: name -> textOf line r' = name /\ forall new, edit line r' new = edit line r (cDOLLAR :: new)).
Proof.
  intros W H. apply replaced_iff in H. subst. split; intros H.
  - destruct (text_name line r name W (or_introl H)) as [A B]. split; [exact A|]. intros new. rewrite B, H, Nat.eqb_refl. reflexivity.
  - destruct (text_name line r name W (or_intror H)) as [A B]. split; [exact A|]. intros new. rewrite B, H.
    replace (Nat.eqb (List.length (cDOLLAR :: name)) (List.length name)) with false by (symmetry; apply Nat.eqb_neq; cbn; lia). reflexivity.
Qed.
Print Assumptions C42_text.
(** The text is not looked at: for a class Foo that is used as "self", the replaced range reads "elf". *)
Theorem C42_text_refuted : exists line r r' name, within line r /\ replaced name r r' /\
  textOf line r = str "self" /\ textOf line r' = str "elf" /\ name = str "Foo".
Proof.
  exists (str "self::a()"), {| sLine := 0; sCol := 0; eLine := 0; eCol := 4 |}, {| sLine := 0; sCol := 1; eLine := 0; eCol := 4 |}, (str "Foo").
  split; [repeat split; cbn; lia|]. split; [apply replaced_iff; reflexivity|]. repeat split; reflexivity.
Qed.
Print Assumptions C42_text_refuted.
Theorem C42_uses_exist c : exists l, usesOf c l.
Proof. exact (usesOf_ex c). Qed.
Print Assumptions C42_uses_exist.
Definition exU (d l s e : Z) : Use := {| uDecl := d; uRange := {| sLine := l; sCol := s; eLine := l; eCol := e |} |}.
Definition exTree : Ctx := mkCtx [exU 1 0 0 2; exU 2 0 3 5] [mkCtx [exU 1 1 4 4] [mkCtx [exU 1 2 0 1] []]; mkCtx [exU 1 3 0 2] []].
Example C42_ex : usesOf exTree [exU 1 0 0 2; exU 2 0 3 5; exU 1 1 4 4; exU 1 2 0 1; exU 1 3 0 2] /\
  map (fun c => (sLine (chRange c), sCol (chRange c))) (fst (applyChanges (fun _ _ => true) 0%nat (fun r => r) (str "a") (str "b") [] exTree 1)) = [(0, 1); (2, 0); (3, 1)].
Proof.
  split; [|reflexivity]. unfold exTree.
  apply (uo_ctx [exU 1 0 0 2; exU 2 0 3 5] _ ([exU 1 1 4 4; exU 1 2 0 1] ++ [exU 1 3 0 2] ++ [])).
  apply ua_cons; [apply (uo_ctx [exU 1 1 4 4] _ ([exU 1 2 0 1] ++ [])); apply ua_cons; [apply (uo_ctx [exU 1 2 0 1] [] []); constructor|constructor]|].
  apply ua_cons; [apply (uo_ctx [exU 1 3 0 2] [] []); constructor|constructor].
Qed.
