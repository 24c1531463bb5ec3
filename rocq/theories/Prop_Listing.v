(* Prop_Listing.v -- C174: the directories of variables and of the environment name their files. *)
From Coq Require Import Permutation Sorted Lia.
From Verif Require Import Base M_Array M_Scan M_Strings M_Format M_Tabs S_Tabs P_Tabs M_Listing.

(* ---------- sorting ---------- *)
Lemma text_leb_total a : forall b, text_leb a b = true \/ text_leb b a = true.
Proof.
  induction a as [|x a IH]; intros [|y b]; cbn; auto. destruct (Z.ltb_spec x y); [auto|]. destruct (Z.ltb_spec y x); [auto|]. apply IH.
Qed.
Lemma text_leb_antisym a : forall b, text_leb a b = true -> text_leb b a = true -> a = b.
Proof.
  induction a as [|x a IH]; intros [|y b]; cbn; try discriminate; auto. destruct (Z.ltb_spec x y), (Z.ltb_spec y x); try discriminate; try lia.
  intros H1 H2. f_equal; [lia|auto].
Qed.
Lemma text_leb_trans a : forall b c, text_leb a b = true -> text_leb b c = true -> text_leb a c = true.
Proof.
  induction a as [|x a IH]; intros [|y b] [|z c]; cbn; try discriminate; auto.
  destruct (Z.ltb_spec x y), (Z.ltb_spec y x), (Z.ltb_spec y z), (Z.ltb_spec z y), (Z.ltb_spec x z), (Z.ltb_spec z x); try discriminate; try lia; eauto.
Qed.
Lemma text_eqb_iff a : forall b, text_eqb a b = true <-> a = b.
Proof.
  induction a as [|x a IH]; intros [|y b]; cbn; try (split; [discriminate|discriminate]); [split; reflexivity|]. rewrite andb_true_iff, Z.eqb_eq, IH.
  split; [intros [-> ->]; reflexivity|intros E; injection E; auto].
Qed.
Lemma insert_perm x l : Permutation (x :: l) (insert_text x l).
Proof. induction l as [|y l IH]; cbn; [reflexivity|]. destruct (text_leb x y); [reflexivity|]. rewrite perm_swap. constructor. exact IH. Qed.
Lemma sort_perm l : Permutation l (sort_texts l).
Proof. induction l as [|x l IH]; [constructor|]. change (sort_texts (x :: l)) with (insert_text x (sort_texts l)). rewrite <- insert_perm. constructor. exact IH. Qed.
Lemma insert_swap x y l : insert_text x (insert_text y l) = insert_text y (insert_text x l).
Proof.
  assert (H : forall x y, text_leb x y = true -> insert_text x [y] = insert_text y [x]).
  { intros a b E. cbn. rewrite E. destruct (text_leb b a) eqn:E2; [|reflexivity]. rewrite (text_leb_antisym _ _ E E2). reflexivity. }
  induction l as [|z l IH].
  - destruct (text_leb_total x y) as [E|E]; [|symmetry]; apply H; exact E.
  - cbn [insert_text]. destruct (text_leb y z) eqn:Y, (text_leb x z) eqn:X; cbn [insert_text]; rewrite ?Y, ?X.
    + destruct (text_leb x y) eqn:E1, (text_leb y x) eqn:E2; try reflexivity.
      * rewrite (text_leb_antisym _ _ E1 E2). reflexivity.
      * destruct (text_leb_total x y); congruence.
    + destruct (text_leb x y) eqn:E1; [|reflexivity]. rewrite (text_leb_trans _ _ _ E1 Y) in X. discriminate.
    + destruct (text_leb y x) eqn:E1; [|reflexivity]. rewrite (text_leb_trans _ _ _ E1 X) in Y. discriminate.
    + f_equal. exact IH.
Qed.
Lemma sort_unique l l' : Permutation l l' -> sort_texts l = sort_texts l'.
Proof. induction 1 as [|x l l' _ IH|x y l|l1 l2 l3 _ IH1 _ IH2]; cbn in *; [reflexivity|f_equal; exact IH|apply insert_swap|congruence]. Qed.
Definition ascending := StronglySorted (fun a b => text_leb a b = true).
Lemma insert_sorted x l : ascending l -> ascending (insert_text x l).
Proof.
  unfold ascending. induction 1 as [|y l S IH F]; cbn; [repeat constructor|]. destruct (text_leb x y) eqn:E.
  - constructor; [constructor; assumption|]. constructor; [exact E|]. eapply Forall_impl; [|exact F]. intros z Hz. eapply text_leb_trans; eassumption.
  - constructor; [exact IH|]. eapply Permutation_Forall; [apply insert_perm|]. constructor; [|exact F]. destruct (text_leb_total x y); [congruence|assumption].
Qed.
Lemma sort_sorted l : ascending (sort_texts l).
Proof. induction l as [|x l IH]; [constructor|]. apply insert_sorted. exact IH. Qed.

(* ---------- maps ---------- *)
Lemma get_in {A} n (m : list (text * A)) v : get n m = Some v -> In (n, v) m.
Proof. induction m as [|[k x] m IH]; cbn; [discriminate|]. destruct (text_eqb k n) eqn:E; [apply text_eqb_iff in E; subst; intros H; injection H as ->; auto|auto]. Qed.
Lemma in_get {A} n (m : list (text * A)) v : NoDup (map fst m) -> In (n, v) m -> get n m = Some v.
Proof.
  induction m as [|[k x] m IH]; cbn; intros N []; apply NoDup_cons_iff in N as [N1 N2].
  - injection H as -> ->. rewrite (proj2 (text_eqb_iff n n) eq_refl). reflexivity.
  - destruct (text_eqb k n) eqn:E; [|auto]. apply text_eqb_iff in E. subst. exfalso. apply N1. exact (in_map fst _ _ H).
Qed.
Lemma get_none {A} n (m : list (text * A)) : get n m = None -> ~ In n (map fst m).
Proof. induction m as [|[k x] m IH]; cbn; [auto|]. destruct (text_eqb k n) eqn:E; [discriminate|]. intros H [->|I]; [rewrite (proj2 (text_eqb_iff n n) eq_refl) in E; discriminate|exact (IH H I)]. Qed.

(* ---------- C174 ---------- *)
(* a name of a variable or of a package: not empty, no arrow, no slash at its end, no tab and no newline *)
Definition name_ok (n : text) : Prop := n <> [] /\ ~ In r_arrow n /\ ends_slash n = false /\ plain n.
(* the second column of a listing starts one blank behind the longest name *)
Definition listing (mpt : text) (entries : list (text * text)) : text :=
  let longest := fold_right Nat.max 0%nat (map (fun e => length (mpt ++ fst e)) entries) in
  concat (map (fun e : text * text => let (n, i) := e in mpt ++ n ++ blanks (S longest - length (mpt ++ n)) ++ i ++ [r_newline]) entries).

Lemma tabwrite_listing mpt (entries : list (text * text)) : plain mpt -> Forall (fun e => plain (fst e) /\ plain (snd e)) entries ->
  tabwrite false (concat (map (fun e : text * text => (mpt ++ fst e) ++ [r_tab] ++ snd e ++ [r_newline]) entries)) = listing mpt entries.
Proof.
  intros (M1 & M2) F. destruct entries as [|e0 es0]; [reflexivity|]. set (entries := e0 :: es0) in *.
  set (R := map (fun e : text * text => [mpt ++ fst e; snd e]) entries).
  replace (map (fun e : text * text => (mpt ++ fst e) ++ [r_tab] ++ snd e ++ [r_newline]) entries) with (map (fun r => Join r [r_tab] ++ [r_newline]) R).
  2: { unfold R. rewrite map_map. apply map_ext. intros (k & v). cbn [fst snd Join]. rewrite <- !app_assoc. reflexivity. }
  assert (FR : Forall (fun r => length r = 2%nat /\ Forall plain r) R).
  { unfold R. apply Forall_map. eapply Forall_impl; [|exact F]. intros (k & v) ((K1 & K2) & V). cbn [fst snd] in *. split; [reflexivity|]. constructor; [|constructor; [exact V|constructor]].
    split; rewrite in_app_iff; intros [Q|Q]; auto. }
  rewrite (tabwrite_rect false 1 R ltac:(discriminate) FR).
  set (longest := fold_right Nat.max 0%nat (map (fun e : text * text => length (mpt ++ fst e)) entries)).
  assert (W : table_width R 0 = S longest).
  { unfold table_width, widest, longest, R. f_equal. clear. induction entries as [|(k & v) es IH]; [reflexivity|]. cbn [map fold_right fst nth] in *. rewrite IH. reflexivity. }
  assert (J : forall ls : list text, ls <> [] -> Join ls [r_newline] ++ [r_newline] = concat (map (fun l => l ++ [r_newline]) ls)).
  { induction ls as [|l ls IH]; intros N; [congruence|]. destruct ls as [|l2 ls]; [cbn; rewrite app_nil_r; reflexivity|].
    change (Join (l :: l2 :: ls) [r_newline]) with (l ++ [r_newline] ++ Join (l2 :: ls) [r_newline]). rewrite <- !app_assoc, IH by discriminate. cbn [map concat]. rewrite <- !app_assoc. reflexivity. }
  etransitivity; [apply J; discriminate|]. unfold listing. f_equal. unfold R at 2. rewrite !map_map. apply map_ext. intros (k & v). cbn [fst snd].
  unfold aligned. cbn [length Nat.sub seq map concat nth]. fold longest. rewrite W. unfold placed. rewrite app_nil_r, <- !app_assoc. reflexivity.
Qed.

Section C174.
  Context {V : Type} (show info : V -> text).
  Notation space := (@space V).
  (* the maps have each name once, and the names are names *)
  Definition sound (w : space) : Prop :=
    NoDup (map fst (packs w)) /\ NoDup (map fst (inner w)) /\ Forall (fun p => name_ok (fst p) /\ NoDup (map fst (snd p)) /\ Forall (fun e => name_ok (fst e)) (snd p)) (packs w)
    /\ Forall (fun e => name_ok (fst e)) (inner w) /\ (forall x, plain (info x)).

  Lemma cut_none n : ~ In r_arrow n -> cut_arrow n = None.
  Proof.
    induction n as [|r n IH]; intros N; [reflexivity|]. cbn [cut_arrow]. destruct (r =? r_arrow) eqn:E; [exfalso; apply N; left; lia|].
    rewrite IH by (intros I; apply N; right; exact I). reflexivity.
  Qed.
  Lemma cut_some p n : ~ In r_arrow p -> cut_arrow (p ++ r_arrow :: n) = Some (p, n).
  Proof.
    induction p as [|r p IH]; intros N; [reflexivity|]. cbn [app cut_arrow]. destruct (r =? r_arrow) eqn:E; [exfalso; apply N; left; lia|].
    rewrite IH by (intros I; apply N; right; exact I). reflexivity.
  Qed.
  Lemma ends_slash_app a b : b <> [] -> ends_slash (a ++ b) = ends_slash b.
  Proof. intros N. destruct (exists_last N) as (c & x & ->). unfold ends_slash. rewrite app_assoc, !rev_app_distr. reflexivity. Qed.
  Lemma trim_add p : trim_slash (p ++ [r_slash]) = p.
  Proof. unfold trim_slash. rewrite ends_slash_app by discriminate. change (ends_slash [r_slash]) with true. cbn iota. apply removelast_last. Qed.

  (* C174 (order): what is listed does not depend on the order in which the maps are walked *)
  Theorem C174_order : forall (w w' : space) name mpt, sound w ->
    Permutation (packs w) (packs w') -> Permutation (inner w) (inner w') -> outer w = outer w' ->
    varOpen show info w name mpt = varOpen show info w' name mpt.
  Proof.
    intros w w' name mpt (N1 & N2 & _) P1 P2 EO.
    assert (G : forall A n (m m' : list (text * A)), NoDup (map fst m) -> Permutation m m' -> get n m = get n m').
    { intros A n m m' N P. assert (N' : NoDup (map fst m')) by (eapply Permutation_NoDup; [apply Permutation_map; exact P|exact N]).
      destruct (get n m) as [v|] eqn:E.
      - symmetry. apply in_get; [exact N'|]. eapply Permutation_in; [exact P|]. apply get_in. exact E.
      - destruct (get n m') as [v|] eqn:E'; [|reflexivity]. exfalso. apply (get_none _ _ E). apply get_in in E'. apply (Permutation_in _ (Permutation_sym P)) in E'. exact (in_map fst _ _ E'). }
    assert (EV : forall p, Vars w p = Vars w' p).
    { intros [|r p]; unfold Vars.
      - f_equal. apply sort_unique. apply Permutation_app; apply Permutation_map; assumption.
      - rewrite (G _ _ _ _ N1 P1). reflexivity. }
    assert (EL : forall n, LookupVar w n = LookupVar w' n).
    { intros n. unfold LookupVar. destruct (cut_arrow n) as [[p v]|] eqn:E; [unfold packageVar; rewrite E, (G _ _ _ _ N1 P1); reflexivity|].
      cbn [find_env]. rewrite (G _ _ _ _ N2 P2), EO. reflexivity. }
    assert (ELI : varList info w name mpt = varList info w' name mpt).
    { unfold varList. rewrite EV. destruct (Vars w' (trim_slash name)) as [l| |]; [|reflexivity|reflexivity]. cbn [obind]. f_equal. f_equal. f_equal. apply map_ext. intros n.
      unfold var_info. rewrite EL. reflexivity. }
    unfold varOpen. rewrite ELI, EL. reflexivity.
  Qed.

  (* C174 (root): the directory lists the packages, each with a slash, and the variables of the innermost
     environment, in ascending order, each once, behind the mount point *)
  Theorem C174_root : forall (w : space) mpt, sound w -> plain mpt -> exists names,
    ascending names /\ Permutation names (map (fun p => fst p ++ [r_slash]) (packs w) ++ map fst (inner w)) /\
    varOpen show info w [] mpt = Ok (listing mpt (map (fun n => (n, if ends_slash n then [] else match get n (inner w) with Some x => info x | None => [] end)) names)).
  Proof.
    intros w mpt (N1 & N2 & FP & FI & HI) PM. set (l := map (fun p => fst p ++ [r_slash]) (packs w) ++ map fst (inner w)).
    exists (sort_texts l). split; [apply sort_sorted|]. split; [symmetry; apply sort_perm|].
    assert (IN : forall n, In n (sort_texts l) -> (exists p, n = p ++ [r_slash] /\ plain p) \/ (name_ok n /\ exists x, get n (inner w) = Some x)).
    { intros n Hn. apply (Permutation_in _ (Permutation_sym (sort_perm l))) in Hn. unfold l in Hn. apply in_app_iff in Hn as [Hn|Hn]; apply in_map_iff in Hn as ((k & x) & <- & Hx).
      - left. rewrite Forall_forall in FP. destruct (FP _ Hx) as ((_ & _ & _ & P) & _). exists k. split; [reflexivity|exact P].
      - right. rewrite Forall_forall in FI. split; [exact (FI _ Hx)|]. exists x. apply in_get; [exact N2|exact Hx]. }
    unfold varOpen, varList. cbn [trim_slash ends_slash rev Vars obind]. fold l. f_equal. rewrite <- tabwrite_listing; [|exact PM|].
    - f_equal. f_equal. rewrite map_map. apply map_ext_in. intros n Hn. cbn [fst snd app]. f_equal. f_equal. f_equal. unfold var_info.
      destruct (IN n Hn) as [(p & -> & _)|((Q1 & Q2 & Q3 & _) & x & E)]; [rewrite ends_slash_app by discriminate; reflexivity|]. rewrite Q3. unfold LookupVar. rewrite (cut_none _ Q2). cbn [find_env]. rewrite E. reflexivity.
    - apply Forall_map, Forall_forall. intros n Hn. cbn [fst snd]. destruct (IN n Hn) as [(p & -> & P1 & P2)|((_ & _ & Q3 & P) & x & E)].
      + rewrite ends_slash_app by discriminate. split; [|split; intros []]. split; rewrite in_app_iff; intros [Q|[Q|[]]]; auto; discriminate Q.
      + rewrite Q3, E. split; [exact P|apply HI].
  Qed.
  (* C174 (package): the directory of a package lists its variables, with the package and an arrow before each *)
  Theorem C174_package : forall (w : space) mpt p e, sound w -> plain mpt -> In (p, e) (packs w) -> exists names,
    ascending names /\ Permutation names (map fst e) /\
    varOpen show info w (p ++ [r_slash]) mpt = Ok (listing mpt (map (fun n => (p ++ [r_arrow] ++ n, match get n e with Some x => info x | None => [] end)) names)).
  Proof.
    intros w mpt p e (N1 & N2 & FP & FI & HI) PM HP. rewrite Forall_forall in FP. destruct (FP _ HP) as ((Np & Ap & Sp & Pp) & Ne & Fe). cbn [fst snd] in *.
    exists (sort_texts (map fst e)). split; [apply sort_sorted|]. split; [symmetry; apply sort_perm|].
    unfold varOpen. destruct (p ++ [r_slash]) as [|r0 s0] eqn:EQ; [destruct p; discriminate|]. rewrite <- EQ. clear EQ r0 s0.
    rewrite ends_slash_app by discriminate. change (ends_slash [r_slash]) with true. cbn iota. unfold varList. rewrite trim_add.
    assert (EV : Vars w p = Ok (sort_texts (map fst e))). { destruct p as [|r p]; [congruence|]. unfold Vars. rewrite (in_get _ _ _ N1 HP). reflexivity. }
    rewrite EV. cbn [obind]. destruct p as [|r p]; [congruence|]. set (q := r :: p) in *.
    assert (IN : forall n, In n (sort_texts (map fst e)) -> name_ok n /\ exists x, get n e = Some x).
    { intros n Hn. apply (Permutation_in _ (Permutation_sym (sort_perm _))) in Hn. apply in_map_iff in Hn as ((k & x) & <- & Hx). rewrite Forall_forall in Fe.
      split; [exact (Fe _ Hx)|]. exists x. apply in_get; [exact Ne|exact Hx]. }
    f_equal. rewrite <- tabwrite_listing; [|exact PM|].
    - f_equal. f_equal. rewrite map_map. apply map_ext_in. intros n Hn. cbn [fst snd]. rewrite <- !app_assoc. f_equal. f_equal. f_equal. f_equal. f_equal. f_equal. 
      destruct (IN n Hn) as ((Q1 & Q2 & Q3 & _) & x & E). unfold var_info. rewrite app_assoc, ends_slash_app by exact Q1. rewrite Q3. unfold LookupVar.
      rewrite <- app_assoc. cbn [app]. rewrite (cut_some q n Ap). unfold packageVar. rewrite (cut_some q n Ap), (in_get _ _ _ N1 HP), E. reflexivity.
    - apply Forall_map, Forall_forall. intros n Hn. cbn [fst snd]. destruct (IN n Hn) as ((_ & _ & _ & P1 & P2) & x & E). rewrite E. split; [|apply HI].
      destruct Pp as (Pp1 & Pp2). split; rewrite !in_app_iff; intros [Q|[[Q|[]]|Q]]; auto; discriminate Q.
  Qed.
  (* C174 (open): every file that is listed can be opened and has the text of the variable *)
  Theorem C174_open : forall (w : space) mpt, sound w ->
    (forall n x, In (n, x) (inner w) -> varOpen show info w n mpt = Ok (show x)) /\
    (forall p e n x, In (p, e) (packs w) -> In (n, x) e -> varOpen show info w (p ++ [r_arrow] ++ n) mpt = Ok (show x)).
  Proof.
    intros w mpt (N1 & N2 & FP & FI & HI). rewrite Forall_forall in FP, FI. split.
    - intros n x Hx. destruct (FI _ Hx) as (Q1 & Q2 & Q3 & _). cbn [fst] in *. unfold varOpen. destruct n as [|r n]; [congruence|]. rewrite Q3. unfold LookupVar. rewrite (cut_none _ Q2). cbn [find_env].
      rewrite (in_get _ _ _ N2 Hx). reflexivity.
    - intros p e n x HP Hx. destruct (FP _ HP) as ((Np & Ap & _) & Ne & Fe). cbn [fst snd] in *. rewrite Forall_forall in Fe. destruct (Fe _ Hx) as (Q1 & _ & Q3 & _). cbn [fst] in *.
      unfold varOpen. destruct (p ++ [r_arrow] ++ n) as [|r0 s0] eqn:EQ; [destruct p; discriminate|]. rewrite <- EQ. clear EQ r0 s0.
      rewrite app_assoc, ends_slash_app by exact Q1. rewrite Q3, <- app_assoc. cbn [app]. unfold LookupVar. rewrite (cut_some p n Ap). unfold packageVar.
      rewrite (cut_some p n Ap), (in_get _ _ _ N1 HP), (in_get _ _ _ Ne Hx). reflexivity.
  Qed.
  (* C174 (no variable): a name which is in no environment and has no arrow cannot be opened, nor a name of a package
     without this variable *)
  Theorem C174_no_variable : forall (w : space) mpt, sound w ->
    (forall n, name_ok n -> Forall (fun e => ~ In n (map fst e)) (inner w :: outer w) -> varOpen show info w n mpt = Err) /\
    (forall p n, name_ok p -> name_ok n -> (forall e, In (p, e) (packs w) -> ~ In n (map fst e)) -> varOpen show info w (p ++ [r_arrow] ++ n) mpt = Err).
  Proof.
    intros w mpt (N1 & N2 & FP & FI & HI). split.
    - intros n (Q1 & Q2 & Q3 & _) F. unfold varOpen. destruct n as [|r n]; [congruence|]. rewrite Q3. unfold LookupVar. rewrite (cut_none _ Q2).
      assert (G : find_env (inner w :: outer w) (r :: n) = None); [|rewrite G; reflexivity].
      induction F as [|e es He _ IH]; [reflexivity|]. cbn [find_env]. destruct (get (r :: n) e) as [v|] eqn:E; [|exact IH]. exfalso. apply He. apply get_in in E. exact (in_map fst _ _ E).
    - intros p n (Np & Ap & _) (Q1 & _ & Q3 & _) H. unfold varOpen. destruct (p ++ [r_arrow] ++ n) as [|r0 s0] eqn:EQ; [destruct p; discriminate|]. rewrite <- EQ. clear EQ r0 s0.
      rewrite app_assoc, ends_slash_app by exact Q1. rewrite Q3, <- app_assoc. cbn [app]. unfold LookupVar. rewrite (cut_some p n Ap). unfold packageVar. rewrite (cut_some p n Ap).
      destruct (get p (packs w)) as [e|] eqn:E; [|reflexivity]. apply get_in in E. destruct (get n e) as [v|] eqn:E2; [|reflexivity]. exfalso. apply (H e E). apply get_in in E2. exact (in_map fst _ _ E2).
  Qed.
  (* C174 (no package): the directory of a package that is not registered cannot be opened *)
  Theorem C174_no_package : forall (w : space) mpt p, p <> [] -> ~ In p (map fst (packs w)) -> varOpen show info w (p ++ [r_slash]) mpt = Err.
  Proof.
    intros w mpt p Np HP. unfold varOpen. destruct (p ++ [r_slash]) as [|r0 s0] eqn:EQ; [destruct p; discriminate|]. rewrite <- EQ. clear EQ r0 s0.
    rewrite ends_slash_app by discriminate. change (ends_slash [r_slash]) with true. cbn iota. unfold varList. rewrite trim_add.
    destruct p as [|r p]; [congruence|]. unfold Vars. destruct (get (r :: p) (packs w)) as [e|] eqn:E; [|reflexivity]. exfalso. apply HP. apply get_in in E. exact (in_map fst _ _ E).
  Qed.
  (* C174 (environment): the directory of the environment has a line for each variable, in the order of the
     system, with the value behind the name; the variable of a name is opened as its value, and no other name can be opened *)
  Theorem C174_environment : forall (env : list (text * text)) mpt, plain mpt -> Forall (fun kv => ~ In r_equal (fst kv) /\ plain (fst kv) /\ plain (snd kv)) env ->
    envOpen env [] mpt = Ok (listing mpt env) /\
    (NoDup (map fst env) -> forall n v, n <> [] -> In (n, v) env -> envOpen env n mpt = Ok v) /\
    (forall n, n <> [] -> ~ In n (map fst env) -> envOpen env n mpt = Err).
  Proof.
    intros env mpt PM F. split; [|split].
    - unfold envOpen. f_equal. rewrite <- tabwrite_listing; [|exact PM|eapply Forall_impl; [|exact F]; intros kv (_ & H); exact H]. f_equal. f_equal. apply map_ext_in. intros (k & v) H.
      cbn [fst snd]. rewrite Forall_forall in F. destruct (F _ H) as (Q & _). cbn [fst] in Q.
      assert (E : tab_for_equal (k ++ [r_equal] ++ v) = k ++ [r_tab] ++ v).
      { clear - Q. induction k as [|r k IH]; [reflexivity|]. cbn [app tab_for_equal] in *. destruct (r =? r_equal) eqn:E; [exfalso; apply Q; left; lia|]. f_equal. apply IH. intros I. apply Q. right. exact I. }
      rewrite E, <- !app_assoc. reflexivity.
    - intros N n v Nn H. unfold envOpen. destruct n as [|r n]; [congruence|]. rewrite (in_get _ _ _ N H). reflexivity.
    - intros n Nn H. unfold envOpen. destruct n as [|r n]; [congruence|]. destruct (get (r :: n) env) as [v|] eqn:E; [|reflexivity].
      exfalso. apply H. apply get_in in E. exact (in_map fst _ _ E).
  Qed.
End C174.
(* C174 (root): Vars is to give the variables of the root environment: it gives those of the innermost
   one.  Within a function the variables around it are not listed, although they can be opened. *)
Theorem C174_root_refuted : exists w : @space Z, sound (fun _ => [105]) w /\ (exists n x, n <> [] /\ find_env (inner w :: outer w) n = Some x /\
  varOpen (fun _ => []) (fun _ => [105]) w n [47] = Ok [] /\
  varOpen (fun _ => []) (fun _ => [105]) w [] [47] = Ok (listing [47] [([66], [105])]) /\ n <> [66]).
Proof.
  exists (mkSpace [] [([66], 2)] [[([65], 1)]]). split.
  - split; [constructor|]. split; [repeat constructor; intros []|]. split; [constructor|]. split; [|intros x; split; intros [E|[]]; discriminate E].
    constructor; [|constructor]. cbn [fst]. split; [discriminate|]. split; [intros [E|[]]; discriminate E|]. split; [reflexivity|]. split; intros [E|[]]; discriminate E.
  - exists [65], 1. split; [discriminate|]. split; [reflexivity|]. split; [reflexivity|]. split; [vm_compute; reflexivity|discriminate].
Qed.
(* two variables and a package: the listing of the root and of the package *)
Example C174_example : let w := mkSpace [([112], [([120; 121], 3); ([97], 4)])] [([66; 66], 2); ([65], 1)] [] in
  sound (fun _ => [105]) w /\
  varOpen (fun _ => [120]) (fun _ => [105]) w [] [47; 118; 47] = Ok ([47;118;47;65] ++ [32;32] ++ [105;10] ++ [47;118;47;66;66] ++ [32] ++ [105;10] ++ [47;118;47;112;47] ++ [32] ++ [10]) /\
  varOpen (fun _ => [120]) (fun _ => [105]) w [112; 47] [47; 118; 47] = Ok ([47;118;47;112;8594;97] ++ [32;32] ++ [105;10] ++ [47;118;47;112;8594;120;121] ++ [32] ++ [105;10]) /\
  envOpen [([80], [49]); ([72; 72], [50])] [] [47] = Ok [47;80;32;32;49;10;47;72;72;32;50;10].
Proof.
  cbv zeta. split; [|repeat split; vm_compute; reflexivity].
  assert (K : forall n, n <> [] -> forallb (fun r => negb (r =? 9) && negb (r =? 10) && negb (r =? r_arrow)) n = true -> ends_slash n = false -> name_ok n).
  { intros n N H E. rewrite forallb_forall in H. split; [exact N|]. split; [intros I; specialize (H _ I); discriminate H|]. split; [exact E|]. split; intros I; specialize (H _ I); discriminate H. }
  split; [repeat constructor; cbn; intuition discriminate|]. split; [repeat constructor; cbn; intuition discriminate|]. split; [|split].
  - constructor; [|constructor]. cbn [fst snd]. split; [apply K; [discriminate|reflexivity|reflexivity]|]. split; [repeat constructor; cbn; intuition discriminate|].
    repeat constructor; try (apply K; [discriminate|reflexivity|reflexivity]); try (apply (K [97]); [discriminate|reflexivity|reflexivity]); try (apply (K [120; 121]); [discriminate|reflexivity|reflexivity]).
  - constructor; [apply (K [66; 66]); [discriminate|reflexivity|reflexivity]|]. constructor; [apply (K [65]); [discriminate|reflexivity|reflexivity]|constructor].
  - intros x. split; intros [E|[]]; discriminate E.
Qed.

Print Assumptions C174_order. Print Assumptions C174_root. Print Assumptions C174_package. Print Assumptions C174_open. Print Assumptions C174_no_package. Print Assumptions C174_no_variable. Print Assumptions C174_environment.
Print Assumptions C174_root_refuted.
