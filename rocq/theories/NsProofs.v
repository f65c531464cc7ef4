(** Proofs about namespace contexts. *)
From Verif Require Import NsModel NsSpec.

Section Ind.
  Variable P : Stmt -> Prop.
  Hypothesis Hl : forall i, P (Leaf i).
  Hypothesis Hs : forall n b, Forall P b -> P (Scope n b).
  Fixpoint Stmt_ind2 (x : Stmt) : P x :=
    match x with
    | Leaf i => Hl i
    | Scope n b => Hs n b ((fix go (l : list Stmt) : Forall P l :=
        match l with [] => Forall_nil P | y :: r => Forall_cons y (Stmt_ind2 y) (go r) end) b)
    end.
End Ind.

(** [s'] is [s] after the events [t], with the same open contexts and declarations. *)
Definition Step (s s' : St) (t : list Event) : Prop :=
  ctxs s' = ctxs s /\ decls s' = decls s /\ openNs s' = openNs s /\ bad s' = bad s /\
  evs s' = rev t ++ evs s.

Definition Quiet (t : list Event) : Prop := Nested t /\ opened t = [] /\ closed t = [].

Lemma inside_ctxs s s' : ctxs s' = ctxs s -> inside s' = inside s.
Proof. unfold inside. intros ->. reflexivity. Qed.

Lemma visits_app a b : visits (a ++ b) = visits a ++ visits b.
Proof. apply flat_map_app. Qed.
Lemma opened_app a b : opened (a ++ b) = opened a ++ opened b.
Proof. apply flat_map_app. Qed.
Lemma closed_app a b : closed (a ++ b) = closed a ++ closed b.
Proof. apply flat_map_app. Qed.

Definition StmtOK (x : Stmt) : Prop := forall s, exists t,
  Step s (visitStmt x s) t /\ Quiet t /\ visits t = map (fun i => (i, inside s)) (leaves x).

Lemma visitStmts_ok l : Forall StmtOK l -> forall s, exists t,
  Step s (visitStmts l s) t /\ Quiet t /\ visits t = map (fun i => (i, inside s)) (flat_map leaves l).
Proof.
  intros F. induction F as [|x l Hx Hl IH]; intros s.
  - exists []. repeat split. constructor.
  - cbn [visitStmts flat_map]. destruct (Hx s) as (t1 & (A1 & A2 & A3 & A4 & A5) & (B1 & B2 & B3) & C1).
    destruct (IH (visitStmt x s)) as (t2 & (D1 & D2 & D3 & D4 & D5) & (E1 & E2 & E3) & F1).
    exists (t1 ++ t2). split; [|split].
    + repeat split; try congruence. rewrite D5, A5, rev_app_distr, app_assoc. reflexivity.
    + split; [apply n_app; assumption|]. rewrite opened_app, closed_app, B2, B3, E2, E3. auto.
    + rewrite visits_app, C1, F1, map_app, (inside_ctxs _ _ A1). reflexivity.
Qed.

Lemma go_visitStmts : forall l s,
  (fix go (l : list Stmt) (s : St) : St :=
     match l with [] => s | y :: r => go r (visitStmt y s) end) l s = visitStmts l s.
Proof. induction l as [|y r IH]; intros s; cbn; [reflexivity|apply IH]. Qed.

Lemma visitStmt_ok x : StmtOK x.
Proof.
  induction x as [i|n b F] using Stmt_ind2; intros s.
  - exists [EVisit i (inside s)]. repeat split. apply n_visit.
  - cbn [visitStmt]. rewrite go_visitStmts.
    destruct (visitStmts_ok b F (openCtx (openDecl s n) OtherCtx n))
      as (t & (A1 & A2 & A3 & A4 & A5) & (B1 & B2 & B3) & C).
    exists (EOpenDecl n :: (EOpen OtherCtx n :: t ++ [EClose OtherCtx n]) ++ [ECloseDecl n]).
    remember (visitStmts b (openCtx (openDecl s n) OtherCtx n)) as s1 eqn:E1.
    cbn in A1, A2, A3, A4, A5.
    split; [|split].
    + unfold Step, closeCtx. rewrite A1. unfold closeDecl. cbn [decls]. rewrite A2. cbn.
      repeat split; auto. rewrite A5. cbn.
      repeat (rewrite ?rev_app_distr, <- ?app_assoc; cbn). reflexivity.
    + split; [apply n_decl; apply n_ctx; exact B1|].
      split.
      * cbn. rewrite !opened_app, B2. reflexivity.
      * cbn. rewrite !closed_app, B3. reflexivity.
    + cbn. rewrite !visits_app, C. cbn. rewrite !app_nil_r. reflexivity.
Qed.

(** Event sequences with the namespaces [cur] (innermost last) still open. *)
Inductive Pending : list nat -> list Event -> Prop :=
| p_top t : Nested t -> Pending [] t
| p_ns cur n t b : Pending cur t -> Nested b ->
    Pending (cur ++ [n]) (t ++ [EOpenDecl n; EOpen NamespaceCtx n] ++ b).

Definition nsCtx (cur : list nat) : list (CtxKind * nat) :=
  rev (map (fun n => (NamespaceCtx, n)) cur) ++ [(TopCtx, 0)].

(** The builder state with the namespaces [cur] open. *)
Record In_ns (cur : list nat) (s : St) : Prop := {
  i_ctxs : ctxs s = nsCtx cur; i_decls : decls s = rev cur; i_bad : bad s = false;
  i_pend : Pending cur (rev (evs s)) }.

Lemma inside_ns cur s : In_ns cur s -> inside s = cur.
Proof.
  intros H. unfold inside. rewrite (i_ctxs _ _ H). unfold nsCtx. rewrite flat_map_app. cbn. rewrite app_nil_r.
  rewrite <- map_rev. rewrite <- (rev_involutive cur) at 2. f_equal.
  generalize (rev cur). induction l as [|x l IH]; cbn; [reflexivity|]. rewrite IH. reflexivity.
Qed.

Lemma pending_app cur t b : Pending cur t -> Nested b -> Pending cur (t ++ b).
Proof.
  intros P N. destruct P as [t H|cur n t b0 P H].
  - constructor. apply n_app; assumption.
  - rewrite <- !app_assoc. apply p_ns; [exact P|]. apply n_app; assumption.
Qed.

Lemma step_ns cur s s' t : In_ns cur s -> Step s s' t -> Nested t -> In_ns cur s' /\ openNs s' = openNs s.
Proof.
  intros [A B C D] (S1 & S2 & S3 & S4 & S5) N. split; [|exact S3]. constructor; try congruence.
  rewrite S5, rev_app_distr, rev_involutive. apply pending_app; assumption.
Qed.

Lemma open_ns cur s n : In_ns cur s -> In_ns (cur ++ [n]) (openNamespace s n) /\
  evs (openNamespace s n) = [EOpen NamespaceCtx n; EOpenDecl n] ++ evs s.
Proof.
  intros [A B C D]. split; [|reflexivity]. constructor; cbn.
  - rewrite A. unfold nsCtx. rewrite map_app, rev_app_distr. reflexivity.
  - rewrite B, rev_app_distr. reflexivity.
  - exact C.
  - rewrite <- app_assoc.
    replace (rev (evs s) ++ [EOpenDecl n] ++ [EOpen NamespaceCtx n])
      with (rev (evs s) ++ [EOpenDecl n; EOpen NamespaceCtx n] ++ []) by reflexivity.
    apply p_ns; [exact D|constructor].
Qed.

Lemma pending_close cur n t : Pending (cur ++ [n]) t -> Pending cur (t ++ [EClose NamespaceCtx n; ECloseDecl n]).
Proof.
  intros P. remember (cur ++ [n]) as c eqn:E. destruct P as [t H|cur0 n0 t b P H].
  - destruct cur; discriminate.
  - apply app_inj_tail in E. destruct E as [-> ->].
    replace ((t ++ [EOpenDecl n; EOpen NamespaceCtx n] ++ b) ++ [EClose NamespaceCtx n; ECloseDecl n])
      with (t ++ (EOpenDecl n :: (EOpen NamespaceCtx n :: b ++ [EClose NamespaceCtx n]) ++ [ECloseDecl n])).
    + apply pending_app; [exact P|]. apply n_decl, n_ctx, H.
    + rewrite <- !app_assoc. cbn. rewrite <- !app_assoc. reflexivity.
Qed.

Lemma close_ns cur s n : In_ns (cur ++ [n]) s -> In_ns cur (closeNamespace s) /\
  evs (closeNamespace s) = [ECloseDecl n; EClose NamespaceCtx n] ++ evs s /\
  openNs (closeNamespace s) = openNs s /\ exists r, ctxs s = (NamespaceCtx, n) :: r.
Proof.
  intros [A B C D].
  assert (A' : ctxs s = (NamespaceCtx, n) :: nsCtx cur).
  { rewrite A. unfold nsCtx. rewrite map_app, rev_app_distr. reflexivity. }
  assert (B' : decls s = n :: rev cur) by (rewrite B, rev_app_distr; reflexivity).
  unfold closeNamespace, closeCtx. rewrite A'. unfold closeDecl. cbn [decls]. rewrite B'. cbn.
  split; [|split; [reflexivity|split; [reflexivity|exists (nsCtx cur); reflexivity]]].
  constructor; cbn; auto. rewrite <- app_assoc. apply pending_close. exact D.
Qed.

Lemma openAll names : forall cur s, In_ns cur s ->
  In_ns (cur ++ names) (fold_left openNamespace names s) /\
  openNs (fold_left openNamespace names s) = openNs s /\
  exists t, evs (fold_left openNamespace names s) = rev t ++ evs s /\
            opened t = names /\ closed t = [] /\ visits t = [].
Proof.
  induction names as [|n r IH]; intros cur s H; cbn [fold_left].
  - rewrite app_nil_r. split; [exact H|]. split; [reflexivity|]. exists []. auto.
  - destruct (open_ns _ _ n H) as (H1 & E1). destruct (IH _ _ H1) as (H2 & E2 & t & E3 & O & C & V).
    rewrite <- app_assoc in H2. split; [exact H2|]. split; [rewrite E2; reflexivity|].
    exists ([EOpenDecl n; EOpen NamespaceCtx n] ++ t). rewrite E3, E1, opened_app, closed_app, visits_app, O, C, V.
    (split; [|repeat split]). cbn. rewrite <- !app_assoc. reflexivity.
Qed.

Lemma closeAll rest : forall cur names s, In_ns (cur ++ names) s -> length rest = length names ->
  In_ns cur (closeLoop rest s) /\ openNs (closeLoop rest s) = openNs s /\
  exists t, evs (closeLoop rest s) = rev t ++ evs s /\
            opened t = [] /\ closed t = rev names /\ visits t = [].
Proof.
  induction rest as [|a rest IH]; intros cur names s H L.
  - destruct names; [|discriminate]. rewrite app_nil_r in H. split; [exact H|]. split; [reflexivity|].
    exists []. auto.
  - assert (NN : names <> []) by (destruct names; [discriminate|intros X; discriminate]).
    destruct (exists_last NN) as (names' & n & ->). clear NN.
    rewrite app_assoc in H. destruct (close_ns _ _ _ H) as (H1 & E1 & O1 & r & E0).
    cbn [closeLoop]. rewrite E0.
    rewrite app_length in L. cbn in L.
    destruct (IH cur names' _ H1) as (H2 & O2 & t & E2 & O & C & V); [lia|].
    split; [exact H2|]. split; [congruence|].
    exists ([EClose NamespaceCtx n; ECloseDecl n] ++ t). rewrite E2, E1, opened_app, closed_app, visits_app, O, C, V, (rev_app_distr names').
    rewrite (rev_app_distr _ t).
    (split; [|repeat split]). cbn. rewrite <- !app_assoc. reflexivity.
Qed.

Lemma closeNamespaces_ok names s : In_ns names s -> names <> [] ->
  In_ns [] (closeNamespaces names s) /\ openNs (closeNamespaces names s) = openNs s /\
  exists t, evs (closeNamespaces names s) = rev t ++ evs s /\
            opened t = [] /\ closed t = rev names /\ visits t = [].
Proof.
  intros H N. unfold closeNamespaces. destruct names as [|a r]; [congruence|].
  apply (closeAll (a :: r) [] (a :: r)); [exact H|reflexivity].
Qed.

Lemma setOpen_ns cur s o : In_ns cur s -> In_ns cur (setOpen s o).
Proof. intros [A B C D]. constructor; assumption. Qed.

(** Between two outer statements. *)
Definition Between (cur : list nat) (s : St) : Prop :=
  In_ns cur s /\ openNs s = match cur with [] => None | _ => Some cur end.

Definition nextCur (cur : list nat) (o : Outer) : list nat :=
  match o with Ns ns None => ns | Ns _ (Some _) => [] | Plain _ => cur end.
Definition closesOf (cur : list nat) (o : Outer) : list nat :=
  match o with Ns ns None => rev cur | Ns ns (Some _) => rev cur ++ rev ns | Plain _ => [] end.
Definition opensOf (o : Outer) : list nat := match o with Ns ns _ => ns | Plain _ => [] end.
Definition visitsOf (cur : list nat) (o : Outer) : list (nat * list nat) :=
  match o with
  | Plain x => map (fun i => (i, cur)) (leaves x)
  | Ns ns (Some b) => map (fun i => (i, ns)) (flat_map leaves b)
  | Ns ns None => []
  end.

Lemma preClose cur s : Between cur s ->
  let s1 := match openNs s with Some o => setOpen (closeNamespaces o s) None | None => s end in
  In_ns [] s1 /\ openNs s1 = None /\
  exists t, evs s1 = rev t ++ evs s /\ opened t = [] /\ closed t = rev cur /\ visits t = [].
Proof.
  intros (H & O). rewrite O. destruct cur as [|a r].
  - split; [exact H|]. split; [exact O|]. exists []. auto.
  - cbn zeta. destruct (closeNamespaces_ok _ _ H) as (H1 & _ & t & T); [discriminate|].
    split; [apply setOpen_ns; exact H1|]. split; [reflexivity|]. exists t. exact T.
Qed.

Definition stepOuter (o : Outer) (s : St) : St :=
  match o with Ns ns b => visitNs ns b s | Plain x => visitStmt x s end.

Lemma outer_ok cur s o : Between cur s -> Between (nextCur cur o) (stepOuter o s) /\
  exists t, evs (stepOuter o s) = rev t ++ evs s /\
    opened t = opensOf o /\ closed t = closesOf cur o /\ visits t = visitsOf cur o.
Proof.
  intros B. destruct o as [ns body|x]; cbn [stepOuter nextCur closesOf opensOf visitsOf].
  - destruct (preClose _ _ B) as (H1 & O1 & t1 & E1 & A1 & C1 & V1). unfold visitNs.
    remember (match openNs s with Some o => setOpen (closeNamespaces o s) None | None => s end) as s1 eqn:Es1.
    destruct ns as [|a r].
    + destruct body as [b|].
      * destruct (visitStmts_ok b (proj2 (Forall_forall _ _) (fun x _ => visitStmt_ok x)) s1)
          as (t2 & S2 & (N2 & A2 & C2) & V2).
        destruct (step_ns _ _ _ _ H1 S2 N2) as (H2 & O2). split; [split; [exact H2|congruence]|].
        exists (t1 ++ t2). destruct S2 as (_ & _ & _ & _ & E2).
        rewrite E2, E1, rev_app_distr, app_assoc. split; [reflexivity|].
        rewrite opened_app, closed_app, visits_app, A1, A2, C1, C2, V1, V2, (inside_ns _ _ H1).
        auto.
      * split; [split; [exact H1|exact O1]|]. exists t1. auto.
    + destruct (openAll (a :: r) [] s1 H1) as (H2 & O2 & t2 & E2 & A2 & C2 & V2).
      cbn [app] in H2. remember (fold_left openNamespace (a :: r) s1) as s2 eqn:Es2.
      destruct body as [b|].
      * destruct (visitStmts_ok b (proj2 (Forall_forall _ _) (fun x _ => visitStmt_ok x)) s2)
          as (t3 & S3 & (N3 & A3 & C3) & V3).
        destruct (step_ns _ _ _ _ H2 S3 N3) as (H3 & O3).
        destruct (closeNamespaces_ok _ _ H3) as (H4 & O4 & t4 & E4 & A4 & C4 & V4); [discriminate|].
        split; [split; [exact H4|congruence]|].
        exists (t1 ++ t2 ++ t3 ++ t4). destruct S3 as (_ & _ & _ & _ & E3).
        rewrite E4, E3, E2, E1, !rev_app_distr, <- !app_assoc. split; [reflexivity|].
        rewrite !opened_app, !closed_app, !visits_app, A1, A2, A3, A4, C1, C2, C3, C4, V1, V2, V3, V4, (inside_ns _ _ H2).
        rewrite !app_nil_r. auto.
      * split; [split; [apply setOpen_ns; exact H2|reflexivity]|].
        exists (t1 ++ t2). cbn [setOpen evs]. rewrite E2, E1, rev_app_distr, app_assoc. split; [reflexivity|].
        rewrite opened_app, closed_app, visits_app, A1, A2, C1, C2, V1, V2, app_nil_r. auto.
  - destruct B as (H & O). destruct (visitStmt_ok x s) as (t & S & (N & A & C) & V).
    destruct (step_ns _ _ _ _ H S N) as (H1 & O1). split; [split; [exact H1|congruence]|].
    destruct S as (_ & _ & _ & _ & E). exists t. rewrite V, (inside_ns _ _ H). auto.
Qed.

Lemma outers_ok f : forall cur s, Between cur s -> exists cur',
  Between cur' (visitOuters f s) /\
  exists t, evs (visitOuters f s) = rev t ++ evs s /\ opened t = nsNames f /\
    closed t ++ rev cur' = rev cur ++ nsClosings f /\ visits t = placed cur f.
Proof.
  induction f as [|o f IH]; intros cur s B.
  - exists cur. split; [exact B|]. exists []. cbn. rewrite app_nil_r. auto.
  - destruct (outer_ok cur s o B) as (B1 & t1 & E1 & A1 & C1 & V1).
    destruct (IH _ _ B1) as (cur' & B2 & t2 & E2 & A2 & C2 & V2).
    exists cur'. replace (visitOuters (o :: f) s) with (visitOuters f (stepOuter o s)) by (destruct o; reflexivity).
    split; [exact B2|]. exists (t1 ++ t2). rewrite E2, E1, rev_app_distr, app_assoc.
    split; [reflexivity|]. rewrite opened_app, closed_app, visits_app, A1, A2, V1, V2.
    split; [|split].
    + destruct o; reflexivity.
    + rewrite <- app_assoc, C2, C1. destruct o as [ns [b|]|x]; cbn; rewrite ?app_nil_r, <- ?app_assoc; reflexivity.
    + destruct o as [ns [b|]|x]; reflexivity.
Qed.

Lemma start_between : Between [] start.
Proof. split; [|reflexivity]. constructor; try reflexivity. cbn. constructor. constructor. Qed.

Lemma file_ok f :
  In_ns [] (startVisiting f) /\ openNs (startVisiting f) = None /\
  opened (trace f) = nsNames f /\ closed (trace f) = nsClosings f /\ visits (trace f) = placed [] f.
Proof.
  destruct (outers_ok f [] start start_between) as (cur & B & t & E & A & C & V).
  destruct (preClose _ _ B) as (H & O & t2 & E2 & A2 & C2 & V2).
  unfold trace, startVisiting. cbn zeta in *.
  split; [exact H|]. split; [exact O|]. rewrite E2, E. cbn. rewrite app_nil_r, <- rev_app_distr, rev_involutive.
  rewrite opened_app, closed_app, visits_app, A, A2, C2, V, V2, C, !app_nil_r. auto.
Qed.

Lemma file_nested f : Nested (trace f).
Proof.
  destruct (file_ok f) as ([_ _ _ P] & _). unfold trace. remember (rev (evs (startVisiting f))) as t eqn:E. clear E.
  remember (@nil nat) as c eqn:E. destruct P as [t H|cur n t b P H]; [exact H|]. destruct cur; discriminate.
Qed.

Lemma file_end f : ctxs (startVisiting f) = [(TopCtx, 0)] /\ decls (startVisiting f) = [] /\
  openNs (startVisiting f) = None /\ bad (startVisiting f) = false.
Proof. destruct (file_ok f) as ([A B C D] & O & _). auto. Qed.
