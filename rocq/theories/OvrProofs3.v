(** C71: the text written. *)
From Verif Require Import ClsSpec OvrSpec ComplModel ClsProofs ClsProofs2 HelpProofs HelpProofs2 HelpProofs3 HelpProofs4 OvrProofs OvrProofs2 TraitProofs.
Open Scope nat_scope.

Lemma has_In k l : has k l = true <-> In k l.
Proof.
  unfold has. rewrite existsb_exists. split.
  - intros (x & Hx & E). apply eqW_eq in E. subst. exact Hx.
  - intros H. exists k. split; [exact H|]. apply Nat.eqb_refl.
Qed.
Lemma has_not k l : has k l = false <-> ~ In k l.
Proof. rewrite <- has_In. destruct (has k l); split; intros; try congruence; try (exfalso; auto; fail). Qed.
Ltac caseHas k l := let E := fresh "H" in destruct (has k l) eqn:E; [apply has_In in E|apply has_not in E].

Lemma nodup_if (b : bool) (x : Word) : NoDup (if b then [x] else []).
Proof. destruct b; [constructor; [intros []|constructor]|constructor]. Qed.
Lemma words_header mods t h : m_isMember (t_member t) = true -> header mods t h (wordsWritten t h mods).
Proof.
  intros M. unfold wordsWritten. rewrite M.
  set (vis := if negb (has WPublic mods) && negb (has WProtected mods) then [match m_access (t_member t) with Protected => WProtected | _ => WPublic end] else []).
  set (stat := if negb (has WStatic mods) && m_static (t_member t) then [WStatic] else []).
  set (fn := match h with OverrideVar => [] | _ => if has WFunction mods then [] else [WFunction] end).
  assert (V : forall k, In k vis <-> ~ In WPublic mods /\ ~ In WProtected mods /\
               k = match m_access (t_member t) with Protected => WProtected | _ => WPublic end).
  { intros k. unfold vis. caseHas WPublic mods; caseHas WProtected mods; cbn; intuition congruence. }
  assert (S : forall k, In k stat <-> ~ In WStatic mods /\ m_static (t_member t) = true /\ k = WStatic).
  { intros k. unfold stat. caseHas WStatic mods; destruct (m_static (t_member t)); cbn; intuition congruence. }
  assert (F : forall k, In k fn <-> ~ In WFunction mods /\ h <> OverrideVar /\ k = WFunction).
  { intros k. unfold fn. destruct h; caseHas WFunction mods; cbn; intuition congruence. }
  assert (I : forall k, In k (rev mods ++ (vis ++ stat) ++ fn) <-> In k mods \/ In k vis \/ In k stat \/ In k fn).
  { intros k. rewrite !in_app_iff, <- in_rev. tauto. }
  constructor.
  - exists ((vis ++ stat) ++ fn). (split; [reflexivity|]). intros k Hk. rewrite !in_app_iff in Hk. destruct Hk as [[Hk|Hk]|Hk].
    + apply V in Hk. destruct Hk as (A & B & ->). destruct (m_access (t_member t)); auto.
    + apply S in Hk. destruct Hk as (A & _ & ->). auto.
    + apply F in Hk. destruct Hk as (A & _ & ->). auto 6.
  - intros ND. apply NoDup_app_intro; [apply NoDup_rev; exact ND| |].
    + apply NoDup_app_intro; [apply NoDup_app_intro| |].
      * apply nodup_if.
      * apply nodup_if.
      * intros k Hv Hs. apply V in Hv. apply S in Hs. destruct Hv as (_ & _ & ->), Hs as (_ & _ & Hs). destruct (m_access (t_member t)); discriminate.
      * unfold fn. destruct h; [constructor|destruct (has WFunction mods); [constructor|constructor; [intros []|constructor]]..].
      * intros k Hv Hs. apply F in Hs. destruct Hs as (_ & _ & ->). apply in_app_iff in Hv. destruct Hv as [Hv|Hv]; [apply V in Hv; destruct Hv as (_ & _ & Hv); destruct (m_access (t_member t)); discriminate|apply S in Hv; destruct Hv as (_ & _ & Hv); discriminate].
    + intros k Hm Hk. apply in_rev in Hm. rewrite !in_app_iff in Hk. destruct Hk as [[Hk|Hk]|Hk].
      * apply V in Hk. destruct Hk as (A & B & ->). destruct (m_access (t_member t)); auto.
      * apply S in Hk. destruct Hk as (A & _ & ->). auto.
      * apply F in Hk. destruct Hk as (A & _ & ->). auto.
  - rewrite I, V, S, F. caseHas WPublic mods; caseHas WProtected mods; destruct (m_access (t_member t)); intuition congruence.
  - rewrite I, V, S, F. caseHas WPublic mods; caseHas WProtected mods; destruct (m_access (t_member t)); intuition congruence.
  - rewrite I, V, S, F. caseHas WStatic mods; destruct (m_access (t_member t)); intuition congruence.
  - rewrite I, V, S, F. caseHas WFunction mods; destruct (m_access (t_member t)); intuition congruence.
Qed.

(** ** The pieces of the text *)
Lemma signature_pieces ps ds : List.length ds <= List.length ps -> flat_map fst (argPieces ps ds) = signature ps ds.
Proof.
  intros _. unfold argPieces, signature. generalize (withDefaults ps ds) as l. intros l. generalize (str "(") as a. clear.
  induction l as [|[p d] r IH]; intros a.
  - cbn. now rewrite app_nil_r.
  - cbn [pieces]. destruct r as [|q r].
    + cbn. rewrite !app_nil_r. now rewrite <- !app_assoc.
    + cbn [flat_map fst]. rewrite IH. cbn [map fst snd joinWith]. now rewrite <- !app_assoc.
Qed.
Lemma callArgs_join ps : callArgs ps true = joinWith (str ", ") (map (fun p => cDOLLAR :: p_name p) ps).
Proof.
  destruct ps as [|p ps]; [reflexivity|]. cbn [callArgs app]. revert p. induction ps as [|q ps IH]; intros p.
  - cbn. now rewrite app_nil_r.
  - cbn [callArgs]. specialize (IH q). cbn [map joinWith]. cbn [map joinWith] in IH. rewrite <- IH. reflexivity.
Qed.
Lemma indentation_is cc line ind rest : indented cc line ind rest -> getIndentation cc line = ind.
Proof.
  intros (-> & B & N). revert B. induction ind as [|c ind IH]; intros B; cbn [app].
  - destruct rest as [|c r]; [reflexivity|]. cbn. rewrite (N c r eq_refl). reflexivity.
  - cbn. rewrite (B c (or_introl eq_refl)). f_equal. apply IH. intros x Hx. apply B. now right.
Qed.
Lemma lead_is cc line ind rest : indented cc line ind rest -> lead cc line = (indentBy ind, begun ind rest).
Proof.
  intros H. unfold lead. rewrite (indentation_is _ _ _ _ H). destruct H as (-> & _ & _).
  assert (E : match ind ++ rest with [] => [] | _ => if eqs (ind ++ rest) ind then [] else cNL :: ind end =
              match rest with [] => [] | _ => cNL :: ind end).
  { destruct rest as [|c r].
    - rewrite app_nil_r. destruct ind; [reflexivity|]. rewrite (proj2 (eqs_eq _ _) eq_refl). reflexivity.
    - assert (X : eqs (ind ++ c :: r) ind = false).
      { destruct (eqs _ _) eqn:E; [|reflexivity]. apply eqs_eq in E. apply (f_equal (@List.length N)) in E. rewrite app_length in E. cbn in E. lia. }
      rewrite X. destruct ind; reflexivity. }
  rewrite E. unfold begun, indentBy. destruct ind; [reflexivity|now rewrite app_nil_r].
Qed.
Ltac flat := repeat (first [rewrite <- app_assoc|progress cbn [app]]); rewrite ?app_nil_r.
Lemma insertion_is cc line ind rest t h mods : m_isMember (t_member t) = true -> List.length (t_defaults t) <= List.length (t_params t) ->
  (t_special t = true -> t_pretty t <> None) -> indented cc line ind rest ->
  insertion cc line t h mods = Some (written ind rest (wordsWritten t h mods) t (functionName t) h).
Proof.
  intros M L SPC HI. unfold insertion. rewrite (lead_is _ _ _ _ HI), M. cbn [andb].
  destruct (argList_spec _ _ L) as (segs & ld & last & _ & E). unfold concatP in E. rewrite (signature_pieces _ _ L) in E. rewrite E.
  assert (Y : match t_pretty t with Some _ => t_special t | None => false end = t_special t).
  { destruct (t_pretty t) eqn:P; [reflexivity|]. destruct (t_special t); [exfalso; now apply SPC|reflexivity]. }
  rewrite Y, callArgs_join. unfold written, joinWords, bodyOf, parentCall. set (name := functionName t). clearbody name. generalize (indentBy ind) as i. intros i.
  destruct h; cbn [orb]; rewrite ?orb_true_r, ?orb_false_r.
  - flat. reflexivity.
  - f_equal. unfold onLines. cbn [flat_map map app bodyLines]. flat. reflexivity.
  - f_equal. destruct (t_interface t); [|destruct (t_special t); [|destruct (t_void t)]]; cbn [negb andb orb bodyLines map];
      unfold onLines, parentCall; change (str ");") with (str ")" ++ str ";"); cbn [flat_map map app]; flat; reflexivity.
Qed.

Lemma last_in (c1 l : qstring) : l <> [] -> (c1 ++ l = [] \/ exists x, c1 ++ l = x ++ [cNL]) -> In cNL l.
Proof.
  intros N [H|(x & H)]; [apply app_eq_nil in H; destruct H; congruence|].
  destruct (exists_last N) as (l' & c & ->). rewrite app_assoc in H. apply app_inj_tail in H. destruct H as [_ ->]. apply in_app_iff. right. left. reflexivity.
Qed.
Lemma split_last (a1 a2 c1 c2 : qstring) : a1 ++ a2 = c1 ++ c2 -> (a1 = [] \/ exists x, a1 = x ++ [cNL]) -> (c1 = [] \/ exists x, c1 = x ++ [cNL]) ->
  ~ In cNL a2 -> ~ In cNL c2 -> a1 = c1 /\ a2 = c2.
Proof.
  intros E A C NA NC. destruct (app_eq_app _ _ _ _ E) as (l & [[-> ->]|[-> ->]]); (destruct l as [|x l]; [now rewrite app_nil_r|exfalso]).
  - apply NC. apply in_app_iff. left. apply (last_in c1); [discriminate|exact A].
  - apply NA. apply in_app_iff. left. apply (last_in a1); [discriminate|exact C].
Qed.
Lemma firstLine_is b1 b2 : ~ In cNL b1 -> (b2 = [] \/ exists x, b2 = cNL :: x) -> firstLine (b1 ++ b2) = b1.
Proof.
  intros N B. induction b1 as [|c b IH]; cbn [app].
  - destruct B as [->|(x & ->)]; reflexivity.
  - cbn. destruct (N.eqb c cNL) eqn:E; [apply N.eqb_eq in E; subst; exfalso; apply N; now left|]. f_equal. apply IH. intros H. apply N. now right.
Qed.
(** ** The document *)
Theorem implemented cc api pre w post t h mods kept line ind rest :
  ascii_ok cc -> spacesAreNoLetters cc -> m_isMember (t_member t) = true ->
  List.length (t_defaults t) <= List.length (t_params t) -> (t_special t = true -> t_pretty t <> None) ->
  typedBehind cc pre mods kept -> forall after, pre ++ w ++ post = front api pre kept ++ after ->
  lineIn (front api pre kept) after line -> indented cc line ind rest ->
  implement cc api (pre ++ w ++ post) (typed origin pre) (typed origin (pre ++ w)) t h =
  Some (front api pre kept ++ written ind rest (wordsWritten t h mods) t (functionName t) h ++ post).
Proof.
  intros OK SP M L SPC TB after EA LI HI. unfold implement.
  rewrite before_typed. replace (getMethodTokens cc pre) with mods.
  2: { destruct TB as [TB _]. symmetry. exact (before_unique cc OK SP pre _ _ (tokens_sound cc OK SP pre) TB). }
  assert (S : replaceStart cc api (pre ++ w ++ post) (typed origin pre) mods = typed origin (front api pre kept)).
  { unfold replaceStart, front. destruct api; [|reflexivity]. destruct (rev mods) as [|k ks] eqn:R.
    - assert (mods = []) by (rewrite <- (rev_involutive mods), R; reflexivity). subst mods. destruct TB as [_ TB]. inversion TB; subst. reflexivity.
    - rewrite before_typed, (first_modifier cc OK SP pre mods kept k ks TB R). destruct TB as [_ TB].
      destruct (ends_clean cc OK SP _ _ _ TB) as (X & -> & _). rewrite firstn_app, Nat.sub_diag, firstn_all. cbn [firstn]. rewrite app_nil_r. symmetry. apply typed_cursor. }
  rewrite S.
  assert (LA : lineAt (pre ++ w ++ post) (k_line (typed origin (front api pre kept))) = line).
  { rewrite EA, typed_cursor. cbn [k_line]. unfold lineAt. set (f := front api pre kept) in *.
    destruct LI as (a1 & a2 & b1 & b2 & E1 & E2 & E3 & B1 & B2 & N).
    destruct (tail_split f) as (c1 & c2 & F1 & D1 & D2 & D3). rewrite D3.
    rewrite E1 in F1. destruct (split_last _ _ _ _ F1 B1 D1) as [<- <-]; [intros Y; apply N; subst line; apply in_app_iff; auto|exact D2|].
    rewrite E1, <- app_assoc, skipn_app, skipn_all, Nat.sub_diag. cbn [app skipn]. rewrite E2, app_assoc, <- E3. apply firstLine_is; assumption. }
  rewrite LA, (insertion_is _ _ _ _ _ _ _ M L SPC HI). f_equal. destruct api; cbn [front] in *.
  - destruct TB as [_ TB]. destruct (ends_clean cc OK SP _ _ _ TB) as (X & -> & _).
    replace ((kept ++ X) ++ w ++ post) with (kept ++ (X ++ w) ++ post) by now rewrite <- !app_assoc.
    replace ((kept ++ X) ++ w) with (kept ++ X ++ w) by now rewrite <- !app_assoc. apply replace_typed.
  - apply replace_typed.
Qed.

(** Where such a member may be chosen, the modifiers fit. *)
Lemma offered_overrides w pub cur c mods l m h t : nth_error w cur = Some c -> ownFirst l ->
  In (m, h) (snd (classMemberItems w pub cur mods l)) -> t_member t = m ->
  ~ (In WPublic mods /\ In WProtected mods) -> forall ws, header mods t h ws -> mayOverride ws m.
Proof.
  intros HC HO HI HT NB ws [K _ P Q S _]. destruct (overrides_main _ _ _ _ _ _ _ _ HC HO HI) as (_ & A & F & _ & (F1 & F2 & F3 & F4) & _ & _).
  rewrite HT in P, Q, S. constructor.
  - destruct K as (more & -> & K). rewrite in_app_iff, <- in_rev. intros [X|X]; [auto|]. apply K in X. destruct X as [_ X]. intuition discriminate.
  - rewrite P, Q. caseHas WPublic mods; caseHas WProtected mods; destruct (m_access m); intuition congruence.
  - rewrite P, Q. caseHas WPublic mods; caseHas WProtected mods; destruct (m_access m); intuition congruence.
  - rewrite S. intuition.
  - exact A.
  - intros X. destruct (m_final m); [exfalso; auto|reflexivity].
Qed.
Lemma function_last cc pre mods kept t h : typedBehind cc pre mods kept -> h <> OverrideVar -> m_isMember (t_member t) = true ->
  (In WFunction mods -> (In WPublic mods \/ In WProtected mods) /\ (In WStatic mods \/ m_static (t_member t) = false)) ->
  exists ws, wordsWritten t h mods = ws ++ [WFunction] /\ ~ In WFunction ws.
Proof.
  intros [(ms & rest & _ & EM & I & _) _] NH M H. unfold wordsWritten. rewrite M.
  assert (NF : ~ In WFunction ms). { intros X. apply I in X. unfold isModifier in X. intuition discriminate. }
  destruct EM as [->|[-> _]].
  - destruct H as [H1 H2]; [now left|]. exists (rev ms). split; [|rewrite <- in_rev; exact NF]. cbn [rev].
    replace (negb (has WPublic (WFunction :: ms)) && negb (has WProtected (WFunction :: ms))) with false.
    2: { caseHas WPublic (WFunction :: ms); caseHas WProtected (WFunction :: ms); try reflexivity. tauto. }
    replace (negb (has WStatic (WFunction :: ms)) && m_static (t_member t)) with false.
    2: { caseHas WStatic (WFunction :: ms); [reflexivity|]. destruct H2 as [H2| ->]; [tauto|reflexivity]. }
    destruct h; [congruence| |]; cbn; now rewrite app_nil_r.
  - assert (HF : has WFunction ms = false) by (apply has_not; exact NF).
    eexists. split; [destruct h; [congruence| |]; rewrite HF; rewrite !app_assoc; reflexivity|]. rewrite <- ?app_assoc.
    rewrite !in_app_iff, <- in_rev. intros [X|[X|X]]; [auto| |].
    + match type of X with In _ (if ?b then _ else _) => destruct b end; [destruct X as [X|[]]; destruct (m_access (t_member t)); discriminate|destruct X].
    + match type of X with In _ (if ?b then _ else _) => destruct b end; [destruct X as [X|[]]; discriminate|destruct X].
Qed.
