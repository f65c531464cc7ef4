(** C30: include resolution. *)
From Verif Require Import Chars InclModel InclSpec InclProofs.

(** A non-remote include resolves to the first reachable candidate: next to the including file,
    then in the projects that contain it, then in any project. *)
Theorem C30_resolves cc path (E : Env path) inc doc u : inc <> [] -> ~ remote cc inc ->
  (findIncludeFile cc path E inc doc = Some u <->
   exists c, firstReachable path E (candidates path E inc doc) c /\ asUrl E c = u).
Proof. exact (resolves cc path E inc doc u). Qed.
Print Assumptions C30_resolves.
Theorem C30_unresolved cc path (E : Env path) inc doc : inc <> [] -> ~ remote cc inc ->
  (findIncludeFile cc path E inc doc = None <->
   Forall (fun c => ~ reachable path E c) (candidates path E inc doc)).
Proof. exact (unresolved cc path E inc doc). Qed.
Print Assumptions C30_unresolved.
Theorem C30_remote cc path (E : Env path) inc doc : remote cc inc -> findIncludeFile cc path E inc doc = Some inc.
Proof. exact (resolves_remote cc path E inc doc). Qed.
Print Assumptions C30_remote.
Theorem C30_never_missing cc path (E : Env path) inc doc u : ~ remote cc inc ->
  findIncludeFile cc path E inc doc = Some u -> exists p, asUrl E p = u /\ reachable path E p.
Proof. exact (never_missing cc path E inc doc u). Qed.
Print Assumptions C30_never_missing.
(** An include of one quoted literal resolves the text between the quotes, unless it names a
    directory. *)
Theorem C30_literal cc path (E : Env path) q s doc : s <> str "." -> s <> str ".." -> (forall t, s <> t ++ [cSLASH]) ->
  getIncludeFileForNode cc path E (Some [SString (q :: s ++ [q])]) doc = findIncludeFile cc path E s doc.
Proof. exact (node_literal cc path E q s doc). Qed.
Print Assumptions C30_literal.
Theorem C30_directory cc path (E : Env path) q s doc : s = str "." \/ s = str ".." \/ (exists t, s = t ++ [cSLASH]) ->
  getIncludeFileForNode cc path E (Some [SString (q :: s ++ [q])]) doc = None.
Proof. exact (node_directory cc path E q s doc). Qed.
Print Assumptions C30_directory.

(** A file system: /p/a.php including b.php, which is in the project root /p only. *)
Definition exEnv : Env (list qstring) := {|
  parentOf := @tl qstring; join := fun d s => s :: d;
  asUrl := fun p => List.concat (map (fun x => str "/" ++ x) (rev p));
  isLocal := fun _ => true; inside := fun d p => match p with _ :: _ => eqs (last p []) (last d []) | [] => false end;
  known := fun _ => false; onDisk := fun u => eqs u (str "/p/b.php") || eqs u (str "/q/b.php");
  projects := [[str "q"]; [str "p"]] |}.
Example C30_nontrivial :
  findIncludeFile asciiCC _ exEnv (str "b.php") [str "a.php"; str "sub"; str "p"] = Some (str "/p/b.php") /\
  ~ remote asciiCC (str "b.php") /\
  findIncludeFile asciiCC _ exEnv (str "HTTP://x/") [str "a.php"; str "sub"; str "p"] = Some (str "HTTP://x/").
Proof.
  split; [vm_compute; reflexivity|]. split; [|vm_compute; reflexivity].
  rewrite <- remote_spec. vm_compute. discriminate.
Qed.

(** An include of a concatenation resolves its last literal alone: include 'b' . '.php' looks
    for ".php", so the path of the expression is not what is resolved. *)
Theorem C30_concat_refuted : exists (E : Env (list qstring)) doc,
  findIncludeFile asciiCC _ E (str "b" ++ str ".php") doc = None /\
  getIncludeFileForNode asciiCC _ E (Some [SString (str "'b'"); SString (str "'.php'")]) doc = Some (str "/p/.php").
Proof.
  exists {| parentOf := @tl qstring; join := fun d s => s :: d;
            asUrl := fun p => List.concat (map (fun x => str "/" ++ x) (rev p));
            isLocal := fun _ => true; inside := fun d p => false;
            known := fun _ => false; onDisk := fun u => eqs u (str "/p/.php"); projects := [] |}, [str "a.php"; str "p"].
  split; vm_compute; reflexivity.
Qed.
Print Assumptions C30_concat_refuted.
