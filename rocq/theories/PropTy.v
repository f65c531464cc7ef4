(** C50: type equality, hashes, copies. *)
From Verif Require Import Chars TyModel TySpec TyProofs.

(** C50: types compare equal iff they are the same. *)
Theorem C50_equal a b : equals a b = true <-> same a b.
Proof. exact (equals_same a b). Qed.
Print Assumptions C50_equal.
Theorem C50_refl a : equals a a = true.
Proof. apply equals_same. destruct a; constructor. Qed.
Print Assumptions C50_refl.
Theorem C50_sym a b : equals a b = true -> equals b a = true.
Proof. rewrite !equals_same. intros H. destruct H; constructor. Qed.
Print Assumptions C50_sym.
Theorem C50_trans a b c : equals a b = true -> equals b c = true -> equals a c = true.
Proof. rewrite !equals_same. intros H1 H2. destruct H1; inversion H2; subst; constructor. Qed.
Print Assumptions C50_trans.
(** C50: equal types have equal hashes, whatever the hashes of the platform's types are. *)
Theorem C50_hash ih sh a b : equals a b = true -> hash ih sh a = hash ih sh b.
Proof. rewrite equals_same. intros H. destruct H; reflexivity. Qed.
Print Assumptions C50_hash.
(** C50: a copy equals the original, with the same name and contents. *)
Theorem C50_clone a : equals (clone a) a = true /\ equals a (clone a) = true /\ clone a = a.
Proof. assert (E : clone a = a) by (destruct a; reflexivity). rewrite E. repeat split; apply C50_refl. Qed.
Print Assumptions C50_clone.
(** C50: containers of different contents differ. *)
Theorem C50_contents m k i p p' v v' : equals (TCont m k i p v) (TCont m k i p' v') = true <-> v = v'.
Proof. rewrite equals_same. split; [intros H; inversion H; reflexivity|intros ->; constructor]. Qed.
Print Assumptions C50_contents.
(** C50: entries: adding appends, replacing changes one entry. *)
Theorem C50_add m k i p v x n : typeAt (addEntry (TCont m k i p v) x) n = (if (n =? List.length v)%nat then Some x else nth_error v n) /\
  typesCount (addEntry (TCont m k i p v) x) = S (List.length v).
Proof.
  unfold typeAt, typesCount. cbn. split; [|rewrite app_length; cbn; lia].
  destruct (Nat.eqb_spec n (List.length v)) as [->|H]; [rewrite nth_error_app2, Nat.sub_diag by lia; reflexivity|].
  destruct (Nat.lt_ge_cases n (List.length v)); [apply nth_error_app1; assumption|].
  rewrite nth_error_app2 by lia. destruct (n - List.length v)%nat eqn:E; [lia|]. cbn.
  transitivity (@None N); [destruct n0; reflexivity|]. symmetry. apply nth_error_None. lia.
Qed.
Print Assumptions C50_add.
Theorem C50_replace m k i p v n x j : (n < List.length v)%nat ->
  typeAt (replaceType (TCont m k i p v) n x) j = (if (j =? n)%nat then Some x else nth_error v j) /\
  typesCount (replaceType (TCont m k i p v) n x) = List.length v.
Proof. intros H. unfold typeAt, typesCount. cbn. split; [apply setNth_spec; exact H|apply setNth_length]. Qed.
Print Assumptions C50_replace.
(** C50: at most five contents are written out. *)
Theorem C50_string sn inn nameOf ls m k i p v :
  toString sn inn nameOf ls (TCont m k i p v) =
  (match p with [] => sn i | _ => p end) ++ str " of (" ++
  join (str ", ") (map nameOf (firstn 5 v) ++ (if (5 <? List.length v)%nat then [str "..."] else [])) ++ str ")".
Proof. cbn [toString]. rewrite shown_spec. reflexivity. Qed.
Print Assumptions C50_string.
(** Every resource, callable or object type is made constant. *)
Theorem C50_const d : N.odd (modifiers (newIntegralExtended d)) = true.
Proof. reflexivity. Qed.
Print Assumptions C50_const.
Example C50_ex : equals (TCont 0 1 7 (str "Foo") [3; 4]) (TCont 0 1 7 (str "foo") [3; 4]) = true /\
  equals (TCont 0 1 7 [] [3; 4]) (TCont 0 1 7 [] [4; 3]) = false /\ equals (TStruct 0 1 7 []) (TCont 0 1 7 [] []) = false /\
  equals (TInt 0 4) (TInt 1 4) = false.
Proof. repeat split; reflexivity. Qed.
