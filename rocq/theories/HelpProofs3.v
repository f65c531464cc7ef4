From Verif Require Import HelpSpec ComplModel HelpProofs2.
Open Scope nat_scope.

Lemma replace_char x by_ s : replaceAll [x] by_ s 0 = flat_map (fun c => if N.eqb x c then by_ else [c]) s.
Proof.
  induction s as [|c s IH]; [reflexivity|]. cbn [replaceAll isPrefix flat_map].
  rewrite andb_true_r. destruct (N.eqb x c); [cbn [List.length Nat.sub]|]; rewrite IH; reflexivity.
Qed.
Lemma flat_map_id_char x by_ s : ~ In x s -> flat_map (fun c => if N.eqb x c then by_ else [c]) s = s.
Proof.
  induction s as [|c s IH]; intros H; [reflexivity|]. cbn.
  replace (N.eqb x c) with false by (symmetry; apply N.eqb_neq; intros ->; apply H; now left).
  cbn. f_equal. apply IH. intros X. apply H. now right.
Qed.
Lemma flat_map_flat_map {A B C} (f : B -> list C) (g : A -> list B) l :
  flat_map f (flat_map g l) = flat_map (fun a => flat_map f (g a)) l.
Proof. induction l as [|a l IH]; [reflexivity|]. cbn. rewrite flat_map_app, IH. reflexivity. Qed.
Lemma flat_map_ext_in {A B} (f g : A -> list B) l : (forall a, In a l -> f a = g a) -> flat_map f l = flat_map g l.
Proof.
  induction l as [|a l IH]; intros H; [reflexivity|]. cbn. rewrite (H a (or_introl eq_refl)), IH; auto.
  intros b Hb. apply H. now right.
Qed.
Lemma flat_ch s : flat (map Ch s) = s.
Proof. induction s as [|c s IH]; [reflexivity|]. cbn. unfold flat in IH. rewrite IH. reflexivity. Qed.
Lemma flat_app a b : flat (a ++ b) = flat a ++ flat b.
Proof. apply flat_map_app. Qed.

Section Exec.
Variables ind level : qstring.
Hypothesis HI : noPercent ind.
Hypothesis HL : noPercent level.

Definition f1 (p : Piece) : list B :=
  match p with PChar c => [Ch c] | PNewline => Ch cNL :: map Ch ind | PMark m => [Mk m] end.
Definition f2 (p : Piece) : list B :=
  match p with PMark MIndent => map Ch level | _ => f1 p end.
Definition chars (t : list Piece) : Prop := forall c, In (PChar c) t -> c <> cPERCENT /\ c <> cNL.

Lemma step1 t : chars t -> replaceAll [cNL] (cNL :: ind) (writeTemplate t) 0 = flat (flat_map f1 t).
Proof using.
  intros HC. rewrite replace_char. unfold writeTemplate, flat. rewrite !flat_map_flat_map. apply flat_map_ext_in.
  intros p Hp. destruct p as [c| |m].
  - apply flat_map_id_char. intros [X|[]]. apply (HC c Hp). exact X.
  - cbn. f_equal. rewrite app_nil_r. symmetry. apply flat_ch.
  - rewrite flat_map_id_char; [destruct m; reflexivity|]. destruct m; cbn; intuition discriminate.
Qed.
Lemma okc_f1 t : chars t -> okc (flat_map f1 t).
Proof using HI.
  intros HC c H. apply in_flat_map in H. destruct H as (p & Hp & H). destruct p as [d| |m]; cbn in H.
  - destruct H as [H|[]]. injection H as ->. apply (HC c Hp).
  - destruct H as [H|H]; [injection H as <-; discriminate|]. apply in_map_iff in H.
    destruct H as (d & E & Hd). injection E as ->. apply (HI c Hd).
  - destruct H as [H|[]]. discriminate.
Qed.

Lemma app_split_mk p X m pre q : (forall m', ~ In (Mk m') X) -> X ++ p = pre ++ Mk m :: q ->
  exists pre', pre = X ++ pre' /\ p = pre' ++ Mk m :: q.
Proof using.
  revert pre. induction X as [|x X IH]; intros pre HX E; [exists pre; auto|]. destruct pre as [|y pre]; cbn in E.
  - injection E as -> E. exfalso. apply (HX m). now left.
  - injection E as -> E. destruct (IH pre) as (pre' & -> & E2); [intros m' H; apply (HX m'); now right|exact E|].
    exists pre'. auto.
Qed.
Lemma split_mark t : forall pre m q, flat_map f1 t = pre ++ Mk m :: q ->
  exists pre' q', t = pre' ++ PMark m :: q' /\ flat_map f1 q' = q.
Proof using.
  induction t as [|p t IH]; intros pre m q E; cbn in E; [destruct pre; discriminate|].
  destruct p as [c| |m'].
  - destruct (app_split_mk (flat_map f1 t) [Ch c] m pre q) as (pre1 & -> & E1); [intros ? [X|[]]; discriminate|exact E|].
    destruct (IH pre1 m q E1) as (pre' & q' & -> & H). exists (PChar c :: pre'), q'. auto.
  - destruct (app_split_mk (flat_map f1 t) (Ch 10%N :: map Ch ind) m pre q) as (pre1 & -> & E1); [|exact E|].
    + intros m' [X|X]; [discriminate|]. apply in_map_iff in X. destruct X as (? & X & _). discriminate.
    + destruct (IH pre1 m q E1) as (pre' & q' & -> & H). exists (PNewline :: pre'), q'. auto.
  - destruct pre as [|y pre]; cbn in E.
    + injection E as -> E. exists [], t. auto.
    + injection E as <- E. destruct (IH pre m q E) as (pre' & q' & -> & H). exists (PMark m' :: pre'), q'. auto.
Qed.
Lemma split_run s : forall t m post, ~ In cNL s -> flat_map f1 t = map Ch s ++ Mk m :: post ->
  exists post', t = map PChar s ++ PMark m :: post'.
Proof using.
  induction s as [|c s IH]; intros t m post NS E.
  - destruct t as [|[d| |m'] t]; cbn in E; try discriminate. injection E as -> E. exists t. reflexivity.
  - destruct t as [|[d| |m'] t]; cbn in E; try discriminate.
    + injection E as -> E. destruct (IH t m post) as (post' & ->); [intros X; apply NS; now right|exact E|].
      exists post'. reflexivity.
    + injection E as E _. exfalso. apply NS. now left.
Qed.
Lemma name_nl m : ~ In cNL (markerName m).
Proof using. destruct m; cbn; intuition discriminate. Qed.
Lemma quiet_f1 m t : unambiguous t -> quiet m (flat_map f1 t).
Proof using.
  intros U pre m1 m2 post E. exfalso. destruct (split_mark t pre m1 _ E) as (pre' & q' & -> & E2).
  destruct (split_run (markerName m) q' m2 post (name_nl m) E2) as (post' & ->).
  exact (U pre' m1 (markerName m) m2 post' m eq_refl eq_refl).
Qed.
Lemma step2 t : chars t -> unambiguous t ->
  replaceAll (str "%INDENT%") level (replaceAll [cNL] (cNL :: ind) (writeTemplate t) 0) 0 = flat (flat_map f2 t).
Proof using HI.
  intros HC U. rewrite (step1 t HC). change (str "%INDENT%") with (pat MIndent).
  rewrite replace_flat; [|apply okc_f1; exact HC|apply quiet_f1; exact U].
  unfold flat. rewrite !flat_map_flat_map. apply flat_map_ext_in. intros p Hp. destruct p as [c| |m].
  - reflexivity.
  - cbn. f_equal. clear. induction ind as [|c s IH]; [reflexivity|]. cbn. f_equal. exact IH.
  - destruct m; cbn; rewrite ?app_nil_r; try reflexivity. symmetry. apply flat_ch.
Qed.

Definition onlyCh (l : list B) : Prop := exists s, l = map Ch s /\ forall c, In c s -> c <> cPERCENT.
Lemma plain_f2 t : plain t -> flat_map f2 t = map Ch (showTemplate ind level t) /\
  (forall c, In c (showTemplate ind level t) -> c <> cPERCENT).
Proof using HI HL.
  induction t as [|p t IH]; intros HP; [split; [reflexivity|intros ? []]|].
  destruct IH as [IH1 IH2]; [intros q Hq; apply HP; now right|]. cbn. rewrite IH1, map_app.
  assert (G : f2 p = map Ch (showPiece ind level p) /\ (forall c, In c (showPiece ind level p) -> c <> 37%N)).
  { destruct (HP p (or_introl eq_refl)) as [->|[->|(c & -> & H1 & H2)]]; cbn.
    - split; [reflexivity|]. intros c [<-|H]; [discriminate|apply (HI c H)].
    - split; [reflexivity|]. intros c H. apply (HL c H).
    - split; [reflexivity|]. intros d [<-|[]]. exact H1. }
  destruct G as [G1 G2]. rewrite G1. (split; [reflexivity|]).
  intros c H. apply in_app_or in H. destruct H; auto.
Qed.
Lemma plain_chars t : plain t -> chars t.
Proof using.
  intros HP c H. destruct (HP _ H) as [X|[X|(d & X & H1 & H2)]]; try discriminate. injection X as ->. auto.
Qed.

Lemma okc_ch s l : (forall c, In c s -> c <> cPERCENT) -> okc l -> okc (map Ch s ++ l).
Proof using.
  intros H O c Hc. apply in_app_or in Hc. destruct Hc as [Hc|Hc]; [|exact (O c Hc)].
  apply in_map_iff in Hc. destruct Hc as (d & E & Hd). injection E as ->. auto.
Qed.
Lemma okc_mk m l : okc l -> okc (Mk m :: l).
Proof using. intros O c [X|X]; [discriminate|exact (O c X)]. Qed.
Lemma okc_nil : okc [].
Proof using. intros c []. Qed.
Lemma nomk s m : ~ In (Mk m) (map Ch s).
Proof using. intros H. apply in_map_iff in H. destruct H as (? & X & _). discriminate. Qed.

(** Few markers leave no room for a false one. *)
Lemma run_split s1 : forall s2 m1 m2 r1 r2, map Ch s1 ++ Mk m1 :: r1 = map Ch s2 ++ Mk m2 :: r2 ->
  s1 = s2 /\ m1 = m2 /\ r1 = r2.
Proof using.
  induction s1 as [|c s1 IH]; intros [|d s2] m1 m2 r1 r2 E; cbn in E; try discriminate.
  - injection E as -> ->. auto.
  - injection E as -> E. destruct (IH s2 m1 m2 r1 r2 E) as (-> & -> & ->). auto.
Qed.
Lemma quiet_none m s : quiet m (map Ch s).
Proof using.
  intros pre m1 m2 post E. exfalso. apply (nomk s m1). rewrite E. apply in_or_app. right. now left.
Qed.
Lemma quiet_one m x a b : quiet m (map Ch a ++ Mk x :: map Ch b).
Proof using.
  intros pre m1 m2 post E. exfalso.
  destruct (app_split_mk (Mk x :: map Ch b) (map Ch a) m1 pre _ (nomk a) E) as (pre' & -> & E2).
  destruct pre' as [|y pre']; cbn in E2.
  - injection E2 as _ E2. apply (nomk b m2). rewrite E2. apply in_or_app. right. now left.
  - injection E2 as _ E2. apply (nomk b m1). rewrite E2. apply in_or_app. right. now left.
Qed.
Lemma quiet_two m x y a s b : s <> markerName m \/ x = m -> quiet m (map Ch a ++ Mk x :: map Ch s ++ Mk y :: map Ch b).
Proof using.
  intros HS pre m1 m2 post E.
  destruct (app_split_mk _ (map Ch a) m1 pre _ (nomk a) E) as (pre' & -> & E2).
  destruct pre' as [|z pre']; cbn in E2.
  - injection E2 as -> E2. apply run_split in E2. destruct E2 as (-> & -> & E2).
    destruct HS as [HS|HS]; [congruence|exact HS].
  - injection E2 as _ E2. exfalso.
    destruct (app_split_mk _ (map Ch s) m1 pre' _ (nomk s) E2) as (pre2 & -> & E3).
    destruct pre2 as [|z2 pre2]; cbn in E3.
    + injection E3 as _ E3. apply (nomk b m2). rewrite E3. apply in_or_app. right. now left.
    + injection E3 as _ E3. apply (nomk b m1). rewrite E3. apply in_or_app. right. now left.
Qed.

Lemma subst_flat m by_ l : flat_map (subst1 m by_) l = flat (flat_map (fun b => match b with Mk m' => if meq m m' then map Ch by_ else [b] | _ => [b] end) l).
Proof using.
  unfold flat. rewrite flat_map_flat_map. apply flat_map_ext_in. intros [c|m'] _; cbn; [reflexivity|].
  destruct (meq m m'); cbn; rewrite ?app_nil_r; [symmetry; apply flat_ch|reflexivity].
Qed.
Lemma subst_ch m by_ s : flat_map (subst1 m by_) (map Ch s) = s.
Proof using. induction s as [|c s IH]; [reflexivity|]. cbn. rewrite IH. reflexivity. Qed.
Lemma index_none m l : okc l -> quiet m l -> ~ In (Mk m) l -> indexFrom (pat m) (flat l) 0 = None.
Proof using.
  intros O Q N. pose proof (index_flat m l O Q N [] 0 (or_introl eq_refl)) as H. rewrite app_nil_r in H. exact H.
Qed.
Lemma index_some m l l' i : okc l -> okc l' -> quiet m l -> quiet m (l ++ Mk m :: l') -> ~ In (Mk m) l ->
  indexFrom (pat m) (flat (l ++ Mk m :: l')) i = Some (i + List.length (flat l)).
Proof using.
  intros O O' Q Q' N. rewrite flat_app.
  rewrite (index_flat m l O Q N (flat (Mk m :: l')) i).
  - reflexivity.
  - right. exists l'. auto.
Qed.
End Exec.

Lemma indentation_ok cc line : ascii_ok cc -> ~ In cNL line -> noPercent (getIndentation cc line).
Proof.
  intros OK. induction line as [|c line IH]; intros H; cbn; [intros ? []|]. destruct (isSpace cc c) eqn:E; [|intros ? []].
  intros d [<-|Hd].
  - split; [|intros ->; apply H; now left]. intros ->. rewrite (ok_space cc OK) in E by lia. discriminate.
  - apply IH; [|exact Hd]. intros X. apply H. now right.
Qed.
Lemma indent_ok cfg : noPercent (indentString cfg).
Proof.
  destruct cfg as [[n|]|]; cbn; intros c H.
  - apply repeat_spec in H. subst. split; discriminate.
  - repeat (destruct H as [<-|H]; [split; discriminate|]). contradiction.
  - destruct H as [<-|[]]. split; discriminate.
Qed.

Lemma write_ne t : t <> [] -> writeTemplate t <> [].
Proof. destruct t as [|[c| |m] t]; [congruence| | |]; intros _; discriminate. Qed.

(** The three kinds of templates. *)
Lemma plain_app a b : plain (a ++ b) <-> plain a /\ plain b.
Proof.
  split; [intros H; split; intros p Hp; apply H; apply in_or_app; auto|].
  intros [H1 H2] p Hp. apply in_app_or in Hp. destruct Hp; auto.
Qed.
Lemma chars_app a b : chars a -> chars b -> chars (a ++ b).
Proof. intros H1 H2 c Hc. apply in_app_or in Hc. destruct Hc; [apply H1|apply H2]; assumption. Qed.
Lemma chars_mk m b : chars b -> chars (PMark m :: b).
Proof. intros H c [X|X]; [discriminate|apply H; exact X]. Qed.

Definition result (r : qstring) (start : Cursor) (p : nat) (e : option nat) : Executed :=
  let before := firstn p r in
  let c := {| k_line := k_line start + countNl before; k_col := k_col start + tailLen before 0 |} in
  {| x_text := r; x_cursor := Some c;
     x_selection := match e with Some e => Some {| k_line := k_line c; k_col := k_col c + e - p |} | None => None end |}.

Lemma exec_none cc cfg line start kw t : ascii_ok cc -> ~ In cNL line -> t <> [] -> plain t -> unambiguous t ->
  execute cc cfg line start kw (writeTemplate t) =
  {| x_text := showTemplate (getIndentation cc line) (indentString cfg) t; x_cursor := None; x_selection := None |}.
Proof.
  intros OK NL NE HP U. set (ind := getIndentation cc line). set (level := indentString cfg).
  pose proof (indentation_ok cc line OK NL) as HI. fold ind in HI. pose proof (indent_ok cfg) as HL. fold level in HL.
  unfold execute. destruct (writeTemplate t) as [|x w] eqn:EW; [exfalso; exact (write_ne t NE EW)|].
  rewrite <- EW. fold ind. fold level. rewrite (step2 ind level HI t (plain_chars t HP) U).
  destruct (plain_f2 ind level HI HL t HP) as [E HC]. rewrite E.
  assert (O : okc (map Ch (showTemplate ind level t))).
  { rewrite <- (app_nil_r (map _ _)). apply okc_ch; [exact HC|apply okc_nil]. }
  change (str "%CURSOR%") with (pat MCursor). change (str "%SELECT%") with (pat MSelect).
  rewrite !index_none by (auto using quiet_none, nomk). rewrite flat_ch. reflexivity.
Qed.

Lemma exec_cursor cc cfg line start kw a b : ascii_ok cc -> ~ In cNL line -> plain a -> plain b ->
  unambiguous (a ++ PMark MCursor :: b) ->
  let show := showTemplate (getIndentation cc line) (indentString cfg) in
  execute cc cfg line start kw (writeTemplate (a ++ PMark MCursor :: b)) =
  result (show a ++ show b) start (List.length (show a)) None.
Proof.
  intros OK NL HA HB U. cbn zeta. set (ind := getIndentation cc line). set (level := indentString cfg).
  pose proof (indentation_ok cc line OK NL) as HI. fold ind in HI. pose proof (indent_ok cfg) as HL. fold level in HL.
  unfold execute. set (t := a ++ PMark MCursor :: b) in *.
  destruct (writeTemplate t) as [|x w] eqn:EW.
  { exfalso. apply (write_ne t); [unfold t; destruct a; discriminate|exact EW]. }
  rewrite <- EW. fold ind. fold level.
  assert (CT : chars t) by (apply chars_app; [|apply chars_mk]; apply plain_chars; assumption).
  rewrite (step2 ind level HI t CT U).
  destruct (plain_f2 ind level HI HL a HA) as [EA CA]. destruct (plain_f2 ind level HI HL b HB) as [EB CB].
  assert (ET : flat_map (f2 ind level) t = map Ch (showTemplate ind level a) ++ Mk MCursor :: map Ch (showTemplate ind level b)).
  { unfold t. rewrite flat_map_app, EA. cbn. rewrite EB. reflexivity. }
  rewrite ET. set (A := showTemplate ind level a) in *. set (Bb := showTemplate ind level b) in *.
  change (str "%CURSOR%") with (pat MCursor).
  assert (OA : okc (map Ch A)) by (rewrite <- (app_nil_r (map _ _)); apply okc_ch; [exact CA|apply okc_nil]).
  assert (OB : okc (map Ch Bb)) by (rewrite <- (app_nil_r (map _ _)); apply okc_ch; [exact CB|apply okc_nil]).
  rewrite index_some by (auto using quiet_none, quiet_one, nomk). rewrite flat_ch, Nat.add_0_l.
  unfold removeAll. rewrite replace_flat; [|apply okc_ch; [exact CA|apply okc_mk; exact OB]|apply quiet_one].
  rewrite flat_map_app. cbn [flat_map subst1 meq]. rewrite !subst_ch. reflexivity.
Qed.

Lemma exec_select cc cfg line start kw a s b : ascii_ok cc -> ~ In cNL line -> plain a -> plain b -> s <> [] ->
  noPercent s -> unambiguous (a ++ PMark MSelect :: map PChar s ++ PMark MEndSelect :: b) ->
  let show := showTemplate (getIndentation cc line) (indentString cfg) in
  execute cc cfg line start kw (writeTemplate (a ++ PMark MSelect :: map PChar s ++ PMark MEndSelect :: b)) =
  result (show a ++ s ++ show b) start (List.length (show a)) (Some (List.length (show a) + List.length s)).
Proof.
  intros OK NL HA HB NS HS U. cbn zeta. set (ind := getIndentation cc line). set (level := indentString cfg).
  pose proof (indentation_ok cc line OK NL) as HI. fold ind in HI. pose proof (indent_ok cfg) as HL. fold level in HL.
  unfold execute. set (t := a ++ PMark MSelect :: map PChar s ++ PMark MEndSelect :: b) in *.
  destruct (writeTemplate t) as [|x w] eqn:EW.
  { exfalso. apply (write_ne t); [unfold t; destruct a; discriminate|exact EW]. }
  rewrite <- EW. fold ind. fold level.
  assert (CS : chars (map PChar s)).
  { intros c Hc. apply in_map_iff in Hc. destruct Hc as (d & E & Hd). injection E as ->. exact (HS c Hd). }
  assert (CT : chars t).
  { apply chars_app; [apply plain_chars; assumption|]. apply chars_mk, chars_app; [exact CS|]. apply chars_mk, plain_chars. exact HB. }
  rewrite (step2 ind level HI t CT U).
  destruct (plain_f2 ind level HI HL a HA) as [EA CA]. destruct (plain_f2 ind level HI HL b HB) as [EB CB].
  assert (ES : flat_map (f2 ind level) (map PChar s) = map Ch s).
  { clear. induction s as [|c s IH]; [reflexivity|]. cbn. rewrite IH. reflexivity. }
  assert (ET : flat_map (f2 ind level) t =
     map Ch (showTemplate ind level a) ++ Mk MSelect :: map Ch s ++ Mk MEndSelect :: map Ch (showTemplate ind level b)).
  { unfold t. rewrite flat_map_app, EA. cbn. rewrite flat_map_app, ES. cbn. rewrite EB. reflexivity. }
  rewrite ET. set (A := showTemplate ind level a) in *. set (Bb := showTemplate ind level b) in *.
  change (str "%CURSOR%") with (pat MCursor). change (str "%SELECT%") with (pat MSelect). change (str "%ENDSELECT%") with (pat MEndSelect).
  assert (OA : okc (map Ch A)) by (rewrite <- (app_nil_r (map _ _)); apply okc_ch; [exact CA|apply okc_nil]).
  assert (OB : okc (map Ch Bb)) by (rewrite <- (app_nil_r (map _ _)); apply okc_ch; [exact CB|apply okc_nil]).
  assert (OS : okc (map Ch s ++ Mk MEndSelect :: map Ch Bb)) by (apply okc_ch; [intros c Hc; apply (HS c Hc)|apply okc_mk; exact OB]).
  assert (NC : s <> markerName MCursor) by (apply (U a MSelect s MEndSelect b MCursor); reflexivity).
  assert (I1 : indexFrom (pat MCursor) (flat (map Ch A ++ Mk MSelect :: map Ch s ++ Mk MEndSelect :: map Ch Bb)) 0 = None).
  { apply index_none.
    - apply okc_ch; [exact CA|apply okc_mk; exact OS].
    - apply quiet_two. left. exact NC.
    - intros X. apply in_app_or in X. destruct X as [X|[X|X]]; [exact (nomk A _ X)|discriminate|].
      apply in_app_or in X. destruct X as [X|[X|X]]; [exact (nomk s _ X)|discriminate|exact (nomk Bb _ X)]. }
  rewrite I1.
  rewrite index_some by (auto using quiet_none, quiet_two, nomk). rewrite flat_ch, Nat.add_0_l.
  assert (R1 : removeAll (pat MSelect) (flat (map Ch A ++ Mk MSelect :: map Ch s ++ Mk MEndSelect :: map Ch Bb)) =
               flat (map Ch (A ++ s) ++ Mk MEndSelect :: map Ch Bb)).
  { unfold removeAll. rewrite replace_flat; [|apply okc_ch; [exact CA|apply okc_mk; exact OS]|apply quiet_two; auto].
    rewrite flat_map_app. cbn [flat_map subst1 meq]. rewrite flat_map_app. cbn [flat_map subst1 meq]. rewrite !subst_ch.
    rewrite flat_app, flat_ch. cbn [flat flat_map flat1]. fold (flat (map Ch Bb)). rewrite flat_ch, <- app_assoc. reflexivity. }
  rewrite R1.
  assert (K : skipn (S (List.length A)) (flat (map Ch (A ++ s) ++ Mk MEndSelect :: map Ch Bb)) =
              flat (map Ch (tl s) ++ Mk MEndSelect :: map Ch Bb)).
  { rewrite !flat_app, !flat_ch. rewrite <- app_assoc. destruct s as [|c s']; [congruence|]. cbn [tl].
    rewrite skipn_app. replace (skipn (S (List.length A)) A) with (@nil N) by (symmetry; apply skipn_all2; lia).
    replace (S (List.length A) - List.length A) with 1 by lia. reflexivity. }
  rewrite K.
  assert (CTL : forall c, In c (tl s) -> c <> cPERCENT).
  { intros c Hc. apply (HS c). destruct s; [contradiction|]. now right. }
  assert (OT : okc (map Ch (tl s))) by (rewrite <- (app_nil_r (map _ _)); apply okc_ch; [exact CTL|apply okc_nil]).
  rewrite index_some by (auto using quiet_none, quiet_one, nomk).
  unfold removeAll. rewrite replace_flat.
  2: { apply okc_ch; [|apply okc_mk; exact OB]. intros c Hc. apply in_app_or in Hc. destruct Hc as [Hc|Hc]; [auto|apply (HS c Hc)]. }
  2: { apply quiet_one. }
  rewrite flat_map_app. cbn [flat_map subst1 meq app]. rewrite !subst_ch, flat_ch, <- app_assoc.
  replace (S (List.length A) + List.length (tl s)) with (List.length A + List.length s)
    by (destruct s; [congruence|cbn; lia]).
  reflexivity.
Qed.

(** ** Cursor arithmetic *)
Lemma typed_app k s1 : forall s2, typed k (s1 ++ s2) = typed (typed k s1) s2.
Proof. revert k. induction s1 as [|c s IH]; intros k s2; [reflexivity|]. cbn. apply IH. Qed.
Lemma typed_flat k s : ~ In cNL s -> typed k s = {| k_line := k_line k; k_col := k_col k + List.length s |}.
Proof.
  revert k. induction s as [|c s IH]; intros k H; cbn [typed List.length].
  - rewrite Nat.add_0_r. destruct k; reflexivity.
  - replace (N.eqb c 10) with false by (symmetry; apply N.eqb_neq; intros ->; apply H; now left).
    rewrite IH by (intros X; apply H; now right). cbn. f_equal. lia.
Qed.
Lemma typed_line k s : k_line (typed k s) = k_line k + countNl s.
Proof.
  revert k. induction s as [|c s IH]; intros k; cbn [typed countNl]; [cbn; lia|]. rewrite IH. unfold countNl. cbn [filter].
  rewrite (N.eqb_sym 10 c). destruct (N.eqb c 10); cbn; lia.
Qed.
Lemma tailLen_typed s : forall k, k_col (typed k s) = tailLen s (k_col k).
Proof.
  induction s as [|c s IH]; intros k; cbn; [reflexivity|]. rewrite IH. destruct (N.eqb c 10); reflexivity.
Qed.
Lemma tailLen_flat s n : ~ In cNL s -> tailLen s n = n + List.length s.
Proof.
  revert n. induction s as [|c s IH]; intros n H; cbn [tailLen List.length]; [lia|].
  replace (N.eqb c 10) with false by (symmetry; apply N.eqb_neq; intros ->; apply H; now left).
  rewrite IH by (intros X; apply H; now right). lia.
Qed.
Lemma cursor_right start s : ~ In cNL s \/ k_col start = 0 ->
  {| k_line := k_line start + countNl s; k_col := k_col start + tailLen s 0 |} = typed start s.
Proof.
  intros H. pose proof (typed_line start s) as E1. pose proof (tailLen_typed s start) as E2.
  destruct (typed start s) as [l c]. cbn in E1, E2. subst l c. f_equal.
  destruct H as [H|H].
  - rewrite !tailLen_flat by exact H. lia.
  - rewrite H. reflexivity.
Qed.
Lemma show_nonl ind level a : noPercent level -> plain a -> noNewline a -> ~ In cNL (showTemplate ind level a).
Proof.
  intros HL HP NN H. apply in_flat_map in H. destruct H as (p & Hp & H).
  destruct (HP p Hp) as [->|[->|(c & -> & H1 & H2)]]; cbn in H.
  - exact (NN Hp).
  - apply (HL 10%N H). reflexivity.
  - destruct H as [H|[]]. congruence.
Qed.
