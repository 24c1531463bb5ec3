(* Prop_IoFns.v -- C168: mounting a source; C169: running a program; C170: the working directory. *)
From Coq Require Import Permutation.
From Verif Require Import Base Eff M_Array M_Strings S_Strings P_Strings M_Mount S_Mount P_Mount M_IoFns.

(* ================ C168 ================ *)
(* names of protocols: every name once, and none contains :// *)
Definition plain_protocols {X} (ps : protocols X) : Prop :=
  NoDup (map fst ps) /\ forall n f, In (n, f) ps -> ~ occurs proto_sep n.
(* src is rest in the protocol named n *)
Definition in_protocol (n rest src : bytes) : Prop := src = n ++ proto_sep ++ rest.
Definition no_protocol {X} (ps : protocols X) (src : bytes) : Prop := forall n f rest, In (n, f) ps -> ~ in_protocol n rest src.

Lemma sep_unique n1 n2 r1 r2 : ~ occurs proto_sep n1 -> ~ occurs proto_sep n2 -> n1 ++ proto_sep ++ r1 = n2 ++ proto_sep ++ r2 -> n1 = n2 /\ r1 = r2.
Proof.
  revert n2. induction n1 as [|a n1 IH]; intros n2 N1 N2 E.
  - destruct n2 as [|b n2]; [split; [reflexivity|]; cbn [app] in E; injection E as <-; reflexivity|]. exfalso. unfold proto_sep in *. cbn [app] in E.
    injection E as <- E. destruct n2 as [|b n2]; [discriminate E|]. cbn [app] in E. injection E as <- E. destruct n2 as [|b n2]; [discriminate E|]. cbn [app] in E. injection E as <- E.
    apply N2. exists [], n2. reflexivity.
  - destruct n2 as [|b n2].
    + exfalso. unfold proto_sep in *. cbn [app] in E. injection E as -> E. destruct n1 as [|b n1]; [discriminate E|]. cbn [app] in E. injection E as -> E. destruct n1 as [|b n1]; [discriminate E|]. cbn [app] in E. injection E as -> E.
      apply N1. exists [], n1. reflexivity.
    + cbn [app] in E. injection E as <- E. destruct (IH n2) as [-> ->]; [| |exact E|split; reflexivity].
      * intros (x & y & H). apply N1. exists (a :: x), y. rewrite H. reflexivity.
      * intros (x & y & H). apply N2. exists (a :: x), y. rewrite H. reflexivity.
Qed.
Section C168.
  Context {X : Type} (isdir : list bytes -> option bool) (fsString : ofs X -> bytes).
  Notation source := (source isdir).
  Notation mount := (mount isdir fsString).
  Lemma by_protocol_in (ps : protocols X) n f rest : plain_protocols ps -> In (n, f) ps -> by_protocol ps (n ++ proto_sep ++ rest) = Some (f rest).
  Proof.
    intros [D P] I. induction ps as [|[n' f'] ps IH]; [contradiction|]. cbn [by_protocol]. cbn [map fst] in D. apply NoDup_cons_iff in D as [D1 D2].
    destruct (HasPrefix (n ++ proto_sep ++ rest) (n' ++ proto_sep)) eqn:E.
    - apply HasPrefix_iff in E as [y E]. rewrite <- app_assoc in E.
      destruct (sep_unique _ _ _ _ (P n f I) (P n' f' (or_introl eq_refl)) E) as [<- <-].
      replace (TrimPrefix (n ++ proto_sep ++ rest) (n ++ proto_sep)) with rest by (rewrite app_assoc, TrimPrefix_app; reflexivity).
      destruct I as [I|I]; [injection I as <-; reflexivity|]. exfalso. apply D1. apply (in_map fst) in I. exact I.
    - destruct I as [I|I].
      + injection I as <- <-. rewrite (proj2 (HasPrefix_iff _ _)) in E; [discriminate E|]. exists rest. rewrite <- app_assoc. reflexivity.
      + apply IH; [exact D2|intros; apply (P n0 f0); right; assumption|exact I].
  Qed.
  Lemma by_protocol_none (ps : protocols X) src : no_protocol ps src -> by_protocol ps src = None.
  Proof.
    induction ps as [|[n f] ps IH]; intros N; [reflexivity|]. cbn [by_protocol]. destruct (HasPrefix src (n ++ proto_sep)) eqn:E.
    - apply HasPrefix_iff in E as [y ->]. exfalso. apply (N n f y); [left; reflexivity|]. unfold in_protocol. rewrite <- app_assoc. reflexivity.
    - apply IH. intros n' f' r I. apply (N n' f' r). right. exact I.
  Qed.
  Lemma by_protocol_some (ps : protocols X) src o : by_protocol ps src = Some o -> exists n f rest, In (n, f) ps /\ in_protocol n rest src /\ o = f rest.
  Proof.
    induction ps as [|[n f] ps IH]; intros E; [discriminate|]. cbn [by_protocol] in E. destruct (HasPrefix src (n ++ proto_sep)) eqn:H.
    - apply HasPrefix_iff in H as [y ->]. rewrite TrimPrefix_app in E. injection E as <-. exists n, f, y. split; [left; reflexivity|]. split; [unfold in_protocol; rewrite <- app_assoc; reflexivity|reflexivity].
    - destruct (IH E) as (n' & f' & r & I & A & B). exists n', f', r. split; [right; exact I|]. split; assumption.
  Qed.
  (* A source that starts with the name of a registered protocol and :// is mounted by that protocol, which gets the rest. *)
  Theorem C168_protocol (s : io X) n f rest m g : plain_protocols (protos s) -> In (n, f) (protos s) -> f rest = Ok g ->
    mount (Some (AStr m)) (AStr (n ++ proto_sep ++ rest)) s =
    match Mount m g (mtable s) with (Ok _, t) => (Ok REmptyArray, mkIo t (protos s) (wdir s)) | (_, t) => (Err, mkIo t (protos s) (wdir s)) end.
  Proof.
    intros P I E. unfold M_IoFns.mount, M_IoFns.source. rewrite (by_protocol_in _ _ _ _ P I), E.
    unfold Mount. destruct (negb (HasPrefix m [slash])); [reflexivity|]. destruct (negb (HasSuffix m [slash])); [reflexivity|]. destruct (existsb _ _); reflexivity.
  Qed.
  (* The protocols are kept in a map, whose order is random: the result does not depend on it. *)
  Theorem C168_order (ps ps' : protocols X) t wd src : plain_protocols ps -> Permutation ps ps' ->
    source (mkIo t ps wd) src = source (mkIo t ps' wd) src.
  Proof.
    intros P Q. assert (P' : plain_protocols ps').
    { destruct P as [D P]. split; [eapply Permutation_NoDup; [apply Permutation_map, Q|exact D]|]. intros n f I. apply (P n f). eapply Permutation_in; [apply Permutation_sym, Q|exact I]. }
    unfold M_IoFns.source. cbn [protos wdir].
    assert (E : by_protocol ps src = by_protocol ps' src); [|rewrite E; reflexivity].
    destruct (by_protocol ps src) as [o|] eqn:E1.
    - destruct (by_protocol_some _ _ _ E1) as (n & f & r & I & A & ->). unfold in_protocol in A. subst src. symmetry. apply by_protocol_in; [exact P'|eapply Permutation_in; eassumption].
    - destruct (by_protocol ps' src) as [o|] eqn:E2; [|reflexivity]. exfalso.
      destruct (by_protocol_some _ _ _ E2) as (n & f & r & I & A & ->). unfold in_protocol in A. subst src.
      rewrite (by_protocol_in ps n f r P) in E1; [discriminate E1|]. eapply Permutation_in; [apply Permutation_sym, Q|exact I].
  Qed.
  (* Any other source is a directory of the os, or the dot. *)
  Theorem C168_directory (s : io X) src f : no_protocol (protos s) src ->
    (source s src = Ok f <-> (src = dot /\ f = Os dot) \/ (src <> dot /\ src <> [] /\ isdir (resolve (wdir s) (Clean src)) = Some true /\ f = Os (path_str (Abs (wdir s) src)))).
  Proof.
    intros N. unfold M_IoFns.source. rewrite (by_protocol_none _ _ N). destruct (beq src dot) eqn:B.
    - apply beq_iff in B. split; [intros H; injection H as <-; left; split; [exact B|reflexivity]|]. intros [[_ ->]|(H & _)]; [reflexivity|contradiction].
    - apply beq_false in B. unfold is_directory. destruct (beq src []) eqn:B0; cbn [negb andb].
      + apply beq_iff in B0. split; [discriminate|]. intros [[H _]|(_ & H & _)]; contradiction.
      + apply beq_false in B0. destruct (isdir (resolve (wdir s) (Clean src))) as [[]|]; cbn [negb].
        * split; [intros H; injection H as <-; right; auto|]. intros [[H _]|(_ & _ & _ & ->)]; [contradiction|reflexivity].
        * split; [discriminate|]. intros [[H _]|(_ & _ & H & _)]; [contradiction|discriminate].
        * split; [discriminate|]. intros [[H _]|(_ & _ & H & _)]; [contradiction|discriminate].
  Qed.
  (* Mounting succeeds exactly for a source that can be opened and a free mount point between slashes;
     it adds one entry to the table, and changes nothing if it fails. *)
  Theorem C168_mount (s : io X) m src r s' : mount (Some (AStr m)) (AStr src) s = (Ok r, s') ->
    exists f, source s src = Ok f /\ valid_point m /\ ~ In m (map fst (mtable s)) /\ r = REmptyArray /\ s' = mkIo (mtable s ++ [(m, f)]) (protos s) (wdir s).
  Proof.
    unfold M_IoFns.mount. destruct (M_IoFns.source isdir s src) as [f| |] eqn:E; [|discriminate|discriminate].
    unfold Mount. destruct (negb (HasPrefix m [slash])) eqn:H1; [discriminate|]. destruct (negb (HasSuffix m [slash])) eqn:H2; [discriminate|]. destruct (existsb _ _) eqn:H3; [discriminate|].
    intros H. injection H as <- <-. exists f. split; [reflexivity|]. apply negb_false_iff in H1, H2. split; [apply valid_dec; split; assumption|]. split; [|split; reflexivity].
    intros I. apply in_map_iff in I as ([m' f'] & <- & I). apply Bool.not_true_iff_false in H3. apply H3. apply existsb_exists. exists (m', f'). split; [exact I|apply beq_refl].
  Qed.
  Theorem C168_mount_possible (s : io X) m src f : source s src = Ok f -> valid_point m -> ~ In m (map fst (mtable s)) ->
    mount (Some (AStr m)) (AStr src) s = (Ok REmptyArray, mkIo (mtable s ++ [(m, f)]) (protos s) (wdir s)).
  Proof.
    intros E V N. unfold M_IoFns.mount. rewrite E. unfold Mount. apply valid_dec in V as [V1 V2]. rewrite V1, V2. cbn [negb].
    replace (existsb _ _) with false; [reflexivity|]. symmetry. apply Bool.not_true_iff_false. intros H. apply existsb_exists in H as ([m' f'] & I & B). apply beq_iff in B. cbn [fst] in B. subst m'.
    apply N. apply (in_map fst) in I. exact I.
  Qed.
  Theorem C168_failed (s : io X) L R o s' : mount L R s = (o, s') -> (forall r, o <> Ok r) -> s' = s.
  Proof.
    intros E N. destruct s as [t ps wd]. unfold M_IoFns.mount in E. destruct L as [[m|]|]; [destruct R as [src|]; [destruct (M_IoFns.source _ _ src) as [f| |]|]| |]; try (injection E as <- <-; reflexivity).
    unfold Mount in E. cbn [mtable protos wdir] in E. destruct (negb (HasPrefix m [slash])); [injection E as <- <-; reflexivity|]. destruct (negb (HasSuffix m [slash])); [injection E as <- <-; reflexivity|]. destruct (existsb _ _); [injection E as <- <-; reflexivity|].
    injection E as <- <-. exfalso. exact (N _ eq_refl).
  Qed.
  (* A fresh process: / is the working directory, /v/ are the variables and /e/ is the environment. *)
  Theorem C168_register var env v e wd : var [slash] = Ok v -> env [slash] = Ok e ->
    mtable (Register isdir fsString var env (mkIo [] [] wd)) = [([slash], Os dot); (pVar, v); (pEnv, e)].
  Proof.
    intros Ev Ee. unfold Register. cbv zeta.
    rewrite (C168_mount_possible _ [slash] dot (Os dot)); [|reflexivity|apply valid_dec; split; reflexivity|intros []]. cbn [snd].
    rewrite (C168_mount_possible _ pVar _ v); [|exact Ev|apply valid_dec; split; reflexivity|intros [H|[]]; discriminate H]. cbn [snd].
    rewrite (C168_mount_possible _ pEnv _ e); [reflexivity|exact Ee|apply valid_dec; split; reflexivity|intros [H|[H|[]]]; discriminate H].
  Qed.
  (* The table belongs to the process: a second interpreter gets the variables of the first one
     under /v/. *)
  Theorem C168_second_interpreter_refuted var1 var2 env v1 v2 e wd : var1 [slash] = Ok v1 -> var2 [slash] = Ok v2 -> env [slash] = Ok e -> v1 <> v2 ->
    let s := Register isdir fsString var2 env (Register isdir fsString var1 env (mkIo [] [] wd)) in
    open_target (mtable s) (pVar ++ [65]) = Ok (v1, [65], pVar) /\ source s (nVar ++ proto_sep ++ [slash]) = Ok v2.
  Proof.
    intros E1 E2 Ee D s. pose proof (C168_register var1 env v1 e wd E1 Ee) as T1. set (s1 := Register isdir fsString var1 env (mkIo [] [] wd)) in *.
    assert (U : forall m src (s0 : io X), In m (map fst (mtable s0)) -> mtable (snd (mount (Some (AStr m)) (AStr src) s0)) = mtable s0 /\ protos (snd (mount (Some (AStr m)) (AStr src) s0)) = protos s0).
    { intros m src s0 I. destruct (mount (Some (AStr m)) (AStr src) s0) as [[r| |] s0'] eqn:E.
      - exfalso. destruct (C168_mount _ _ _ _ _ E) as (f & _ & _ & N & _). exact (N I).
      - rewrite (C168_failed _ _ _ _ _ E) by discriminate. split; reflexivity.
      - rewrite (C168_failed _ _ _ _ _ E) by discriminate. split; reflexivity. }
    assert (S : mtable s = mtable s1 /\ protos s = protos (RegisterProtocol nEnv env (RegisterProtocol nVar var2 s1))).
    { subst s. unfold Register. cbv zeta. set (s2 := RegisterProtocol nEnv env (RegisterProtocol nVar var2 s1)).
      assert (T2 : mtable s2 = mtable s1) by reflexivity. clearbody s2.
      destruct (U [slash] dot s2) as [A1 B1]; [rewrite T2, T1; left; reflexivity|].
      set (s3 := snd (mount (Some (AStr [slash])) (AStr dot) s2)) in *. clearbody s3.
      destruct (U pVar (nVar ++ proto_sep ++ [slash]) s3) as [A2 B2]; [rewrite A1, T2, T1; right; left; reflexivity|].
      set (s4 := snd (mount (Some (AStr pVar)) (AStr (nVar ++ proto_sep ++ [slash])) s3)) in *. clearbody s4.
      destruct (U pEnv (nEnv ++ proto_sep ++ [slash]) s4) as [A3 B3]; [rewrite A2, A1, T2, T1; right; right; left; reflexivity|].
      split; congruence. }
    destruct S as [ST SP]. split; [rewrite ST, T1; reflexivity|]. unfold M_IoFns.source. rewrite SP. cbn [RegisterProtocol protos filter by_protocol fst].
    replace (beq nVar nEnv) with false by reflexivity. cbn [negb by_protocol].
    replace (HasPrefix (nVar ++ proto_sep ++ [slash]) (nEnv ++ proto_sep)) with false by reflexivity.
    replace (HasPrefix (nVar ++ proto_sep ++ [slash]) (nVar ++ proto_sep)) with true by reflexivity.
    replace (TrimPrefix (nVar ++ proto_sep ++ [slash]) (nVar ++ proto_sep)) with ([slash] : bytes) by reflexivity. exact E2.
  Qed.
End C168.
(* A protocol whose name contains :// : what is mounted depends on the order of the map. *)
Theorem C168_order_refuted : exists (ps ps' : protocols Z) src, NoDup (map fst ps) /\ Permutation ps ps' /\
  source (fun _ => None) (mkIo [] ps []) src = Ok (Ext 1) /\ source (fun _ => None) (mkIo [] ps' []) src = Ok (Ext 2).
Proof.
  pose (a := ([97] : bytes, fun _ : bytes => Ok (Ext 1 : ofs Z))). pose (b := ([97] ++ proto_sep ++ [98] : bytes, fun _ : bytes => Ok (Ext 2 : ofs Z))).
  exists [a; b], [b; a], ([97] ++ proto_sep ++ [98] ++ proto_sep). split; [repeat constructor; cbn; intuition discriminate|]. split; [apply perm_swap|]. split; reflexivity.
Qed.
Print Assumptions C168_protocol. Print Assumptions C168_order. Print Assumptions C168_directory. Print Assumptions C168_mount. Print Assumptions C168_mount_possible. Print Assumptions C168_failed. Print Assumptions C168_register. Print Assumptions C168_second_interpreter_refuted. Print Assumptions C168_order_refuted.
Example C168_example : let ps := [(nVar, fun _ => Ok (Ext 1)); (nEnv, fun _ => Ok (Ext 2))] in plain_protocols (X := Z) ps /\ in_protocol nVar [slash] (nVar ++ proto_sep ++ [slash]) /\ no_protocol (X := Z) ps [47; 116; 109; 112].
Proof.
  cbn zeta. split; [split; [repeat constructor; cbn; intuition discriminate|]|split; [reflexivity|]].
  - intros n f [E|[E|[]]]; injection E as <- _; intros (x & y & H); destruct x as [|? [|? [|? [|]]]]; discriminate H.
  - intros n f r [E|[E|[]]]; injection E as <- _; discriminate.
Qed.

(* ================ C169 ================ *)
(* the strings of an argument *)
Inductive strings_of (h : heap) : earg -> list bytes -> Prop :=
| so_string s : strings_of h (EStr s) [s]
| so_strings p v : znth h p = Some v -> strings_of h (EStrs p) v
| so_array v : strings_of h (EArr (map Some v)) v.
(* all arrays of strings are as they were *)
Definition unchanged (h h' : heap) : Prop := forall p v, znth h p = Some v -> znth h' p = Some v.
Lemma all_strings_map v : all_strings (map Some v) = Some v.
Proof. induction v as [|x v IH]; [reflexivity|]. cbn [map all_strings]. rewrite IH. reflexivity. Qed.
Lemma toStrings_gives h r v : strings_of h r v -> exists p h1, toStrings r h = (Ok p, h1) /\ znth h1 p = Some v /\ unchanged h h1 /\ ((exists q, r = EStrs q /\ p = q /\ h1 = h) \/ (p = zlen h /\ forall q, r <> EStrs q)).
Proof.
  assert (N : forall w, exists p h1, hnew w h = (Ok p, h1) /\ znth h1 p = Some w /\ unchanged h h1 /\ p = zlen h).
  { intros w. exists (zlen h), (h ++ [w]). split; [reflexivity|]. split; [rewrite znth_app_r by lia; rewrite Z.sub_diag; reflexivity|]. split; [|reflexivity].
    intros p x E. rewrite znth_app_l; [exact E|]. pose proof (znth_some_range _ _ _ E). lia. }
  intros H. destruct H as [s|p v E|v].
  - destruct (N [s]) as (p & h1 & A & B & C & D). exists p, h1. repeat split; try assumption. right. split; [exact D|discriminate].
  - exists p, h. split; [reflexivity|]. split; [exact E|]. split; [intros q x Q; exact Q|]. left. exists p. repeat split.
  - cbn [toStrings]. rewrite all_strings_map. destruct (N v) as (p & h1 & A & B & C & D). exists p, h1. repeat split; try assumption. right. split; [exact D|discriminate].
Qed.
Section C169.
  Context {X : Type} (starts : list bytes -> bool) (t : mtab (ofs X)).
  Notation exec := (exec starts t).
  (* what is run for an argument: R, or L if there is a left argument, whose right argument is the input *)
  Definition program_of (L : option earg) (R : earg) : earg := match L with Some l => l | None => R end.
  Definition input_of (L : option earg) (text : bytes) : option bytes := match L with Some _ => Some text | None => None end.
  (* A program without a leading slash is run as it is written. *)
  Theorem C169_relative h L R text a0 rest : strings_of h (program_of L R) (a0 :: rest) -> HasPrefix a0 [slash] = false ->
    exists h', exec L R text h = (if starts (a0 :: rest) then Ok (a0 :: rest, input_of L text) else Err, h') /\ unchanged h h'.
  Proof.
    intros S N. destruct (toStrings_gives _ _ _ S) as (p & h1 & E & G & U & _). exists h1. split; [|exact U].
    unfold M_IoFns.exec. fold (program_of L R). unfold ebind at 1. rewrite E. unfold ebind at 1. unfold hget at 1. rewrite G. rewrite N.
    unfold ebind at 1. unfold eret at 1. unfold ebind, hget. rewrite G. destruct (starts _); reflexivity.
  Qed.
  (* A program with a leading slash is the file of the file system that is mounted there, which must be a directory of the os. *)
  Theorem C169_mounted h L R text a0 rest root rel m : strings_of h (program_of L R) (a0 :: rest) -> HasPrefix a0 [slash] = true ->
    open_target t a0 = Ok (Os root, rel, m) ->
    exists h', let c := path_str (JoinPath root rel) :: rest in
      exec L R text h = (if starts c then Ok (c, input_of L text) else Err, h') /\
      (forall p v, program_of L R <> EStrs p -> znth h p = Some v -> znth h' p = Some v) /\
      (forall p, program_of L R = EStrs p -> znth h' p = Some c).
  Proof.
    intros S N O. destruct (toStrings_gives _ _ _ S) as (p & h1 & E & G & U & K). cbn zeta. set (c := path_str (JoinPath root rel) :: rest).
    exists (zupd h1 p c). pose proof (znth_some_range _ _ _ G) as B. assert (GU : znth (zupd h1 p c) p = Some c) by (apply znth_zupd_same; lia).
    unfold open_target in O. destruct (lookup t a0) as [[f m']| |] eqn:LK; cbn [obind fst snd] in O; [|discriminate|discriminate]. injection O as -> <- <-.
    split; [|split].
    - unfold M_IoFns.exec. fold (program_of L R). unfold ebind at 1. rewrite E. unfold ebind at 1. unfold hget at 1. rewrite G. rewrite N.
      unfold ebind at 1. unfold ebind at 1. unfold elift at 1. rewrite LK. cbn [fst snd]. unfold hset at 1. unfold ebind, hget. fold c. rewrite GU. destruct (starts c); reflexivity.
    - intros q v NQ Hq. destruct (Z.eq_dec q p) as [->|D].
      + destruct K as [(q & Eq & -> & _)|(Ep & _)]; [contradiction|]. subst p. pose proof (znth_some_range _ _ _ Hq). lia.
      + rewrite znth_zupd_other by congruence. apply U. exact Hq.
    - intros q Q. destruct K as [(q' & Eq & -> & _)|(_ & K)]; [rewrite Q in Eq; injection Eq as <-; exact GU|exfalso; exact (K q Q)].
  Qed.
  (* nothing to run: no strings, an empty array, or a slash that leads to no directory of the os *)
  Theorem C169_refused h L R text :
    (strings_of h (program_of L R) [] \/ program_of L R = EOther \/ (exists l, program_of L R = EArr l /\ In None l) \/
     exists a0 rest, strings_of h (program_of L R) (a0 :: rest) /\ HasPrefix a0 [slash] = true /\ forall root rel m, open_target t a0 <> Ok (Os root, rel, m)) ->
    exists h', exec L R text h = (Err, h') /\ unchanged h h'.
  Proof.
    intros H. assert (NP : forall n, lookup t n <> Panic) by (intros n; unfold lookup; destruct (_ =? _)%nat; [discriminate|]; destruct (scan_tab _ _); discriminate). unfold M_IoFns.exec. fold (program_of L R).
    assert (UR : unchanged h h) by (intros p v E; exact E).
    destruct H as [S|[->|[(l & -> & I)|(a0 & rest & S & N & O)]]].
    - destruct (toStrings_gives _ _ _ S) as (p & h1 & E & G & U & _). exists h1. split; [|exact U]. unfold ebind at 1. rewrite E. unfold ebind at 1. unfold hget at 1. rewrite G. reflexivity.
    - exists h. split; [reflexivity|exact UR].
    - exists h. split; [|exact UR]. unfold ebind at 1. cbn [toStrings]. replace (all_strings l) with (@None (list bytes)); [reflexivity|]. symmetry.
      induction l as [|[x|] l IH]; [destruct I| |reflexivity]. cbn [all_strings]. destruct I as [I|I]; [discriminate I|]. rewrite (IH I). reflexivity.
    - destruct (toStrings_gives _ _ _ S) as (p & h1 & E & G & U & _). exists h1. split; [|exact U]. unfold ebind at 1. rewrite E. unfold ebind at 1. unfold hget at 1. rewrite G. rewrite N.
      unfold ebind at 1. unfold ebind at 1. unfold elift at 1. specialize (NP a0). unfold open_target in O. destruct (lookup t a0) as [[[root|x] m]| |] eqn:LK; cbn [obind fst snd] in *; try reflexivity; try contradiction.
      exfalso. exact (O _ _ _ eq_refl).
  Qed.
End C169.
(* The array of strings itself is changed: the same call then runs another program.  Here / is
   mounted on /r, and the variable at 0 holds /p x *)
Theorem C169_argument_changed_refuted :
  let t := [([slash], Os [47; 114])] : mtab (ofs Z) in
  let call := exec (fun _ => true) t None (EStrs 0) [] in
  let h := [[[47; 112]; [120]]] in
  let h1 := [[[47; 114; 47; 112]; [120]]] in
  call h = (Ok ([[47; 114; 47; 112]; [120]], None), h1) /\
  fst (call h1) = Ok ([[47; 114; 47; 114; 47; 112]; [120]], None).
Proof. cbn zeta. split; vm_compute; reflexivity. Qed.
Print Assumptions C169_relative. Print Assumptions C169_mounted. Print Assumptions C169_refused. Print Assumptions C169_argument_changed_refuted.

(* ================ C170 ================ *)
(* going from a directory, given by its components, along the parts of a name *)
Definition go1 (d : list bytes) (c : bytes) : list bytes :=
  if beq c [] || beq c dot then d else if beq c [46; 46] then removelast d else d ++ [c].
Definition walk (d : list bytes) (cs : list bytes) : list bytes := fold_left go1 cs d.
(* an absolute directory *)
Definition directory (d : list bytes) : Prop := Forall entry_name d.
(* the parts of a name between its slashes *)
Definition parts (name : bytes) (cs : list bytes) : Prop := cs <> [] /\ name = Join cs [slash] /\ Forall (fun c => ~ In slash c) cs.

Lemma Join_cons x y r : Join (x :: y :: r) [slash] = x ++ [slash] ++ Join (y :: r) [slash].
Proof. reflexivity. Qed.
Lemma comps_join cs : cs <> [] -> Forall (fun c => ~ In slash c) cs -> comps (Join cs [slash]) [] = cs.
Proof.
  intros N F. induction F as [|c cs Hc F IH]; [contradiction|]. destruct cs as [|d cs]; [cbn [Join]; rewrite comps_none by exact Hc; reflexivity|].
  change (Join (c :: d :: cs) [slash]) with (c ++ [slash] ++ Join (d :: cs) [slash]). rewrite comps_app. specialize (IH ltac:(discriminate)). rewrite IH. rewrite comps_none by exact Hc. reflexivity.
Qed.
Lemma parts_comps name cs : parts name cs -> comps name [] = cs.
Proof. intros (N & -> & F). apply comps_join; assumption. Qed.
Definition normal (c : bytes) : Prop := c <> [] /\ c <> dot /\ c <> [46; 46].
Lemma entry_normal c : entry_name c -> normal c.
Proof. intros (A & B & C & _). repeat split; assumption. Qed.
Lemma clean1_normal r acc c : normal c -> clean1 r acc c = c :: acc.
Proof. intros (A & B & C). unfold clean1. apply beq_false in A, B, C. unfold dot in B. rewrite A, B, C. reflexivity. Qed.
Lemma clean1_walk d c : Forall normal d -> rev (clean1 true (rev d) c) = go1 d c.
Proof.
  intros F. unfold clean1, go1. destruct (beq c [] || beq c dot) eqn:E; unfold dot in E; rewrite E; [apply rev_involutive|].
  destruct (beq c [46; 46]) eqn:E2; [|cbn [rev]; rewrite rev_involutive; reflexivity].
  destruct d as [|y d] using rev_ind; [reflexivity|]. clear IHd. rewrite rev_app_distr. cbn [rev app]. apply Forall_app in F as [_ F]. inversion F as [|? ? (_ & _ & Hy) _]; subst.
  apply beq_false in Hy. rewrite Hy, rev_involutive, removelast_last. reflexivity.
Qed.
Lemma go1_normal d c : Forall normal d -> Forall normal (go1 d c).
Proof.
  intros F. unfold go1. destruct (beq c [] || beq c dot) eqn:E; [exact F|]. apply orb_false_iff in E as [E1 E2]. apply beq_false in E1, E2. destruct (beq c [46; 46]) eqn:E3.
  - destruct d as [|y d] using rev_ind; [exact F|]. rewrite removelast_last. apply Forall_app in F as [F _]. exact F.
  - apply beq_false in E3. apply Forall_app. split; [exact F|]. constructor; [repeat split; assumption|constructor].
Qed.
Lemma fold_walk cs d : Forall normal d -> rev (fold_left (clean1 true) cs (rev d)) = walk d cs.
Proof.
  revert d. induction cs as [|c cs IH]; intros d F; [apply rev_involutive|]. change (walk d (c :: cs)) with (walk (go1 d c) cs).
  rewrite <- (IH (go1 d c) (go1_normal d c F)). rewrite <- (clean1_walk d c F), rev_involutive. reflexivity.
Qed.
Lemma walk_directory cs d : Forall (fun c => ~ In slash c) cs -> directory d -> directory (walk d cs).
Proof.
  unfold directory. revert d. induction cs as [|c cs IH]; intros d N F; [exact F|]. inversion N; subst. cbn [walk fold_left]. apply IH; [assumption|].
  unfold go1. destruct (beq c [] || beq c dot) eqn:E; [exact F|]. apply orb_false_iff in E as [E1 E2]. apply beq_false in E1, E2. destruct (beq c [46; 46]) eqn:E3.
  - destruct d as [|y d] using rev_ind; [exact F|]. rewrite removelast_last. apply Forall_app in F as [F _]. exact F.
  - apply beq_false in E3. apply Forall_app. split; [exact F|]. constructor; [repeat split; assumption|constructor].
Qed.
(* a relative path, cleaned first, leads to the same directory *)
Definition kept (c : bytes) : Prop := c <> [] /\ c <> dot.
Lemma clean_false_kept l : Forall kept (fold_left (clean1 false) l []).
Proof.
  induction l as [|c l IH] using rev_ind; [constructor|]. rewrite fold_left_app. cbn [fold_left]. set (acc := fold_left (clean1 false) l []) in *.
  unfold clean1. destruct (beq c [] || beq c [46]) eqn:E; [exact IH|]. apply orb_false_iff in E as [E1 E2]. apply beq_false in E1, E2.
  destruct (beq c [46; 46]) eqn:E3; [|constructor; [split; assumption|exact IH]].
  destruct acc as [|d acc]; [constructor; [split; assumption|constructor]|]. destruct (beq d [46; 46]); [constructor; [split; assumption|exact IH]|inversion IH; assumption].
Qed.
Lemma relative_fold l w : fold_left (clean1 true) (rev (fold_left (clean1 false) l [])) w = fold_left (clean1 true) l w.
Proof.
  induction l as [|c l IH] using rev_ind; [reflexivity|]. rewrite !fold_left_app. cbn [fold_left]. rewrite <- IH. pose proof (clean_false_kept l) as K.
  generalize dependent (fold_left (clean1 false) l []). intros acc ? K.
  destruct (beq c [] || beq c [46]) eqn:E.
  { assert (S : forall r a, clean1 r a c = a) by (intros r a; unfold clean1; rewrite E; reflexivity). rewrite !S. reflexivity. }
  destruct (beq c [46; 46]) eqn:E3.
  - assert (S : forall r a, clean1 r a c = match a with [] => if r then [] else [c] | d :: a' => if beq d [46; 46] then c :: a else a' end) by (intros r a; unfold clean1; rewrite E, E3; reflexivity).
    rewrite (S false acc). destruct acc as [|d acc]; [reflexivity|]. destruct (beq d [46; 46]) eqn:Ed; [cbn [rev]; rewrite !fold_left_app; reflexivity|].
    cbn [rev]. rewrite fold_left_app. cbn [fold_left]. inversion K as [|? ? [K1 K2] _]; subst. pose proof Ed as Ed'. apply beq_false in Ed.
    rewrite (clean1_normal true _ d) by (repeat split; assumption). rewrite S, Ed'. reflexivity.
  - assert (S : clean1 false acc c = c :: acc) by (unfold clean1; rewrite E, E3; reflexivity). rewrite S. cbn [rev]. rewrite fold_left_app. reflexivity.
Qed.
Lemma resolve_clean wd s : directory wd -> resolve wd (Clean s) = if HasPrefix s [slash] then walk [] (comps s []) else walk wd (comps s []).
Proof.
  intros D. assert (F : Forall normal wd) by (eapply Forall_impl; [apply entry_normal|exact D]). unfold resolve, Clean. cbn [fst snd]. destruct (HasPrefix s [slash]).
  - rewrite <- fold_walk by constructor. reflexivity.
  - rewrite relative_fold. apply fold_walk. exact F.
Qed.
Lemma path_str_comps d : directory d -> comps (path_str (true, d)) [] = [] :: (match d with [] => [[]] | _ => d end).
Proof.
  intros D. unfold path_str. cbn [fst snd]. change ([slash] ++ Join d [slash]) with ([] ++ [slash] ++ Join d [slash]). rewrite comps_app. cbn [comps app]. f_equal.
  destruct d as [|x d]; [reflexivity|]. apply comps_join; [discriminate|]. eapply Forall_impl; [|exact D]. intros c H. apply H.
Qed.
Lemma walk_self d : directory d -> forall e, walk e (match d with [] => [[]] | _ => d end) = e ++ d.
Proof.
  intros D. assert (G : forall e, walk e d = e ++ d).
  { induction D as [|c d H D IH]; intros e; [rewrite app_nil_r; reflexivity|]. cbn [walk fold_left]. unfold walk in IH. rewrite IH. apply entry_normal in H as (A & B & C). unfold go1. apply beq_false in A, B, C. rewrite A, B, C. cbn [orb]. rewrite <- app_assoc. reflexivity. }
  intros e. destruct d; [cbn; rewrite app_nil_r; reflexivity|apply G].
Qed.
Lemma path_str_rooted d t : HasPrefix (path_str (true, d) ++ t) [slash] = true.
Proof. apply HasPrefix_iff. exists (Join d [slash] ++ t). reflexivity. Qed.
Lemma Clean_path_str d : directory d -> Clean (path_str (true, d)) = (true, d).
Proof.
  intros D. unfold Clean. pose proof (path_str_rooted d []) as HR. rewrite app_nil_r in HR. rewrite HR. rewrite path_str_comps by exact D. f_equal.
  etransitivity; [exact (fold_walk _ [] (Forall_nil _))|]. exact (walk_self d D []).
Qed.
Lemma JoinPath_dir d rel : directory d -> JoinPath (path_str (true, d)) rel = (true, walk d (comps rel [])).
Proof.
  intros D. unfold JoinPath. replace (beq (path_str (true, d)) []) with false by reflexivity. destruct (beq rel []) eqn:B.
  - apply beq_iff in B. subst rel. rewrite Clean_path_str by exact D. reflexivity.
  - unfold Clean. rewrite path_str_rooted. f_equal. rewrite comps_app, path_str_comps by exact D.
    etransitivity; [exact (fold_walk _ [] (Forall_nil _))|]. unfold walk. rewrite fold_left_app. f_equal. cbn [fold_left]. exact (walk_self d D []).
Qed.
Lemma Abs_resolve wd s : directory wd -> s <> [] -> Abs wd s = (true, resolve wd (Clean s)).
Proof.
  intros D N. unfold Abs. destruct (HasPrefix s [slash]) eqn:H.
  - unfold resolve, Clean. rewrite H. cbn [fst snd]. reflexivity.
  - rewrite JoinPath_dir by exact D. rewrite resolve_clean by exact D. rewrite H. reflexivity.
Qed.
Lemma comps_noslash s : forall cur, ~ In slash cur -> Forall (fun c => ~ In slash c) (comps s cur).
Proof.
  induction s as [|b s IH]; intros cur N; [constructor; [exact N|constructor]|]. cbn [comps]. destruct (b =? slash) eqn:E.
  - constructor; [exact N|]. apply IH. intros [].
  - apply IH. intros I. apply in_app_or in I as [I|[I|[]]]; [exact (N I)|]. apply Z.eqb_neq in E. congruence.
Qed.
Lemma resolve_directory wd s : directory wd -> directory (resolve wd (Clean s)).
Proof. intros D. rewrite resolve_clean by exact D. destruct (HasPrefix s [slash]); apply walk_directory; try (apply comps_noslash; intros []); [constructor|exact D]. Qed.

Section C170.
  Context {X : Type} (isdir : list bytes -> option bool) (fsString : ofs X -> bytes).
  Notation mount := (mount isdir fsString).
  Notation cd := (cd (X := X) isdir).
  (* Changing the directory: it goes along the parts of the name, from the root if it starts with a slash, and succeeds exactly if a directory is there. *)
  Theorem C170_cd (s : io X) d cs : directory (wdir s) -> parts d cs -> d <> [] ->
    let d' := walk (if HasPrefix d [slash] then [] else wdir s) cs in
    cd (AStr d) s = (match isdir d' with Some true => (Ok REmptyArray, mkIo (mtable s) (protos s) d') | _ => (Err, s) end) /\ directory d'.
  Proof.
    intros D P N d'. pose proof (parts_comps _ _ P) as EC. assert (R : resolve (wdir s) (Clean d) = d') by (subst d'; rewrite resolve_clean by exact D; rewrite EC; destruct (HasPrefix d [slash]); reflexivity).
    split; [|rewrite <- R; apply resolve_directory; exact D]. unfold M_IoFns.cd, is_directory. apply beq_false in N. rewrite N, R. cbn [negb andb]. destruct (isdir d') as [[]|]; reflexivity.
  Qed.
  (* Asked for the directory, it answers with a name that leads back to it from anywhere. *)
  Theorem C170_return (s : io X) : directory (wdir s) -> exists name, cd ANone s = (Ok (RStr name), s) /\
    forall s', directory (wdir s') -> isdir (wdir s) = Some true -> cd (AStr name) s' = (Ok REmptyArray, mkIo (mtable s') (protos s') (wdir s)).
  Proof.
    intros D. exists (path_str (true, wdir s)). split; [reflexivity|]. intros s' D' I. unfold M_IoFns.cd, is_directory. replace (beq (path_str (true, wdir s)) []) with false by reflexivity. cbn [negb andb].
    rewrite Clean_path_str by exact D. unfold resolve. cbn [fst snd]. rewrite I. reflexivity.
  Qed.
  (* What is mounted as . moves with the working directory. *)
  Theorem C170_dot_follows (s : io X) name rel m cs : directory (wdir s) -> open_target (mtable s) name = Ok (Os dot, rel, m) -> parts rel cs ->
    opened s name = Ok (walk (wdir s) cs).
  Proof.
    intros D O P. unfold opened. rewrite O. cbn [obind]. f_equal. rewrite <- (parts_comps _ _ P). unfold JoinPath. cbn [beq dot]. destruct (beq rel []) eqn:B.
    - apply beq_iff in B. subst rel. rewrite resolve_clean by exact D. reflexivity.
    - rewrite resolve_clean by exact D. change (HasPrefix (dot ++ [slash] ++ rel) [slash]) with false. cbv iota. rewrite comps_app. reflexivity.
  Qed.
  (* Any other directory is the one that it was when it was mounted, wherever the working directory moves. *)
  Theorem C170_directory_stays (s s' : io X) m src r name rel cs wd' : directory (wdir s) -> no_protocol (protos s) src -> src <> dot ->
    mount (Some (AStr m)) (AStr src) s = (Ok r, s') -> open_target (mtable s') name = Ok (Os (path_str (Abs (wdir s) src)), rel, m) -> parts rel cs ->
    opened (mkIo (mtable s') (protos s') wd') name = Ok (walk (resolve (wdir s) (Clean src)) cs) /\ isdir (resolve (wdir s) (Clean src)) = Some true /\ In (m, Os (path_str (Abs (wdir s) src))) (mtable s').
  Proof.
    intros D NP ND E O P. destruct (C168_mount isdir fsString _ _ _ _ _ E) as (f & S & V & N & _ & ->). apply (C168_directory isdir) in S; [|exact NP].
    destruct S as [[H _]|(_ & N0 & I & ->)]; [contradiction|]. cbn [mtable protos] in *. split; [|split; [exact I|apply in_or_app; right; left; reflexivity]].
    unfold opened. cbn [mtable wdir]. rewrite O. cbn [obind]. f_equal. rewrite Abs_resolve by assumption. rewrite JoinPath_dir by (apply resolve_directory; exact D). unfold resolve. cbn [fst snd]. rewrite (parts_comps _ _ P). reflexivity.
  Qed.
End C170.
Print Assumptions C170_cd. Print Assumptions C170_return. Print Assumptions C170_dot_follows. Print Assumptions C170_directory_stays.
Example C170_example : let d := (fun p : list bytes => Some true) in
  let s := mkIo (X := Z) [([slash], Os dot)] [] [[97]; [98]] in
  directory (wdir s) /\ parts [46; 46; 47; 99] [[46; 46]; [99]] /\
  opened s [47; 120] = Ok [[97]; [98]; [120]] /\ opened (snd (cd d (AStr [46; 46; 47; 99]) s)) [47; 120] = Ok [[97]; [99]; [120]] /\
  opened (snd (cd d (AStr [46; 46; 47; 99]) (snd (mount d (fun _ => []) (Some (AStr [47; 98; 47])) (AStr [120]) s)))) [47; 98; 47; 121] = Ok [[97]; [98]; [120]; [121]].
Proof.
  cbn zeta. split; [repeat constructor; try discriminate; intros [H|[]]; discriminate|]. split; [split; [discriminate|]; split; [reflexivity|]; repeat constructor; unfold slash; cbn; intuition lia|].
  repeat split; vm_compute; reflexivity.
Qed.
