(* Prop_Xgo.v -- C129, C130 and C131: calling Go. *)
From Verif Require Import Base M_Array M_Xgo.
From Coq Require Import List Lia ZArith.
Import ListNotations.
Open Scope Z_scope.

Section Props.
  Context {F Cx text : Type} (float_of : Z -> F) (rune_of : Z -> text).
  Local Notation gval := (@gval F Cx text).
  Local Notation aval := (@aval F Cx text).
  Local Notation export := (@export F Cx text float_of rune_of).
  Local Notation Convert := (@Convert F Cx text).

  (* ---------- C129: values ---------- *)
  (* the value v is g for a Go program, with the type t *)
  Inductive is_go : aval -> gtype -> gval -> Prop :=
  | is_int n : is_go (AInt n) GTInt (GInt n)
  | is_float x : is_go (AFloat x) GTFloat (GFloat x)
  | is_complex x : is_go (AComplex x) GTComplex (GComplex x)
  | is_string s : is_go (AStr s) GTString (GString s)
  | is_slice l e gs : Forall2 (fun x g => is_go x e g) l gs -> is_go (AArr [zlen l] l) (GTSlice e) (GSlice e gs).
  (* Go values, and the types that have a value in APL *)
  Inductive has_type : gval -> gtype -> Prop :=
  | ht_int n : has_type (GInt n) GTInt
  | ht_float x : has_type (GFloat x) GTFloat
  | ht_complex x : has_type (GComplex x) GTComplex
  | ht_string s : has_type (GString s) GTString
  | ht_slice e gs : Forall (fun g => has_type g e) gs -> has_type (GSlice e gs) (GTSlice e).

  Lemma Convert_slice e l : Convert (GSlice e l) = (let* r := mapM Convert l in Ok (AArr [zlen l] r)).
  Proof.
    cbn [M_Xgo.Convert]. match goal with |- obind (?f l) _ = _ => assert (E : f l = mapM Convert l) end; [|rewrite E; reflexivity].
    induction l as [|x l IH]; [reflexivity|]. cbn [mapM]. destruct (Convert x); cbn [obind]; [|reflexivity..]. rewrite IH. destruct (mapM Convert l); reflexivity.
  Qed.
  Lemma go_both t : forall v g, is_go v t g -> export v t = Ok g /\ Convert g = Ok v.
  Proof.
    induction t as [| | | | | |e IH]; intros v g H; inversion H as [| | | |l e' gs HF]; subst; try (split; reflexivity).
    split.
    - cbn [M_Xgo.export self_export elements]. assert (E : mapM (fun x => export x e) l = Ok gs).
      { clear H. induction HF as [|x g l gs Hx _ IHF]; [reflexivity|]. cbn [mapM]. rewrite (proj1 (IH _ _ Hx)). cbn [obind]. rewrite IHF. reflexivity. }
      rewrite E. reflexivity.
    - rewrite Convert_slice. assert (E : mapM Convert gs = Ok l).
      { clear H. induction HF as [|x g l gs Hx _ IHF]; [reflexivity|]. cbn [mapM]. rewrite (proj2 (IH _ _ Hx)). cbn [obind]. rewrite IHF. reflexivity. }
      rewrite E. cbn [obind]. f_equal. f_equal. f_equal. unfold zlen. f_equal. symmetry. eapply Forall2_length. exact HF.
  Qed.
  (* An APL value of the right type is passed to Go as this value, and comes back as it was. *)
  Theorem C129_there_and_back v t g : is_go v t g -> export v t = Ok g /\ Convert g = Ok v.
  Proof. apply go_both. Qed.
  (* Every Go value of a supported type is an APL value, and goes back as the same value. *)
  Theorem C129_back_and_there g t : has_type g t -> exists v, Convert g = Ok v /\ export v t = Ok g /\ is_go v t g.
  Proof.
    enough (E : forall t g, has_type g t -> exists v, is_go v t g).
    { intros H. destruct (E _ _ H) as (v & Hv). exists v. destruct (go_both t v g Hv). auto. }
    clear. induction t as [| | | | | |e IH]; intros g H; inversion H as [| | | |e' gs HF]; subst; try solve [eexists; constructor].
    assert (X : exists l, Forall2 (fun x g => is_go x e g) l gs).
    { clear H. induction HF as [|g gs Hg _ (l & IHF)]; [exists []; constructor|]. destruct (IH g Hg) as (x & Hx). exists (x :: l). constructor; assumption. }
    destruct X as (l & X). exists (AArr [zlen l] l). constructor. exact X.
  Qed.
  (* An array of any shape becomes a slice of its elements: the shape is lost. *)
  Theorem C129_shape_partial ds l e gs : Forall2 (fun x g => is_go x e g) l gs ->
    export (AArr ds l) (GTSlice e) = Ok (GSlice e gs) /\ Convert (GSlice e gs) = Ok (AArr [zlen l] l).
  Proof. intros H. exact (go_both (GTSlice e) (AArr [zlen l] l) (GSlice e gs) (is_slice l e gs H)). Qed.
  (* Values of another type are not always refused with an error: a number is taken for a character
     if a string is expected, and other values make reflect panic. *)
  Theorem C129_types_refuted n x s : export (AInt n) GTString = Ok (GString (rune_of n)) /\ export (AFloat x) GTInt = Panic
    /\ export (AStr s) GTFloat = Panic /\ export AOther GTString = Panic /\ export (AInt n) GTFloat = Ok (GFloat (float_of n)).
  Proof. repeat split. Qed.
  (* A whole number is accepted for the types uint and float. *)
  Theorem C129_uint n : 0 <= n < 2 ^ 63 -> exists g, export (AInt n) GTUint = Ok g /\ Convert g = Ok (AInt n).
  Proof.
    intros H. eexists. split; [reflexivity|]. cbn [M_Xgo.Convert]. rewrite (Z.mod_small n) by lia.
    rewrite Z.mod_small by lia. f_equal. f_equal. lia.
  Qed.

  (* ---------- C130: calls ---------- *)
  (* the values that are passed to a function of n arguments *)
  Inductive passed : Z -> option aval -> aval -> list aval -> Prop :=
  | pa_none L R : passed 0 L R []
  | pa_one L R : passed 1 L R [R]
  | pa_two L R : passed 2 (Some L) R [R; L]
  | pa_vector ds l n : 2 <= n -> zlen l = n -> zlen ds <= 1 -> passed n None (AArr ds l) l.
  Local Notation arguments := (@arguments F Cx text float_of rune_of).
  Local Notation gocall := (@gocall F Cx text float_of rune_of).
  Lemma export_all_length : forall vs ts gs, length vs = length ts -> (export_all float_of rune_of vs ts = Ok gs <-> Forall2 (fun p g => export (fst p) (snd p) = Ok g) (combine vs ts) gs).
  Proof.
    induction vs as [|v vs IH]; intros [|t ts] gs L; cbn [export_all combine]; try discriminate L.
    - split; [intros E; injection E as <-; constructor|intros H; inversion H; reflexivity].
    - injection L as L. split.
      + destruct (export v t) as [g| |] eqn:E; cbn [obind]; try discriminate. destruct (export_all _ _ vs ts) as [r| |] eqn:E2; cbn [obind]; try discriminate.
        intros X. injection X as <-. constructor; [exact E|]. apply IH; assumption.
      + intros H. inversion H as [|? g ? gs' E1 E2]; subst. cbn [fst snd] in E1. rewrite E1. cbn [obind]. apply IH in E2; [|exact L]. rewrite E2. reflexivity.
  Qed.
  Theorem C130_arguments ts L R gs :
    arguments ts L R = Ok gs <-> exists vs, passed (zlen ts) L R vs /\ zlen vs = zlen ts /\ Forall2 (fun p g => export (fst p) (snd p) = Ok g) (combine vs ts) gs.
  Proof.
    assert (V : forall ds l, (2 <= zlen ts) -> (if 1 <? zlen ds then Err else if zlen l =? zlen ts then export_all float_of rune_of l ts else Err) = Ok gs <->
              exists vs, passed (zlen ts) None (AArr ds l) vs /\ zlen vs = zlen ts /\ Forall2 (fun p g => export (fst p) (snd p) = Ok g) (combine vs ts) gs).
    { intros ds l N. destruct (Z.ltb_spec 1 (zlen ds)) as [D|D].
      - split; [discriminate|]. intros (vs & P & _). inversion P; subst; lia.
      - destruct (Z.eqb_spec (zlen l) (zlen ts)) as [E|E].
        + rewrite export_all_length by (unfold zlen in E; lia). split.
          * intros H. exists l. split; [constructor; lia|split; assumption].
          * intros (vs & P & _ & H). inversion P; subst; try lia. exact H.
        + split; [discriminate|]. intros (vs & P & _). inversion P; subst; lia. }
    destruct ts as [|t1 [|t2 [|t3 ts]]].
    - cbn. split; [intros E; injection E as <-; exists []; split; [constructor|split; [reflexivity|constructor]]|].
      intros (vs & P & Lv & H). inversion P; subst; try (exfalso; lia); inversion H; reflexivity.
    - change (arguments [t1] L R) with (let* g := export R t1 in Ok [g]). change (zlen [t1]) with 1. split.
      + destruct (export R t1) as [g| |] eqn:E; cbn [obind]; try discriminate. intros X. injection X as <-. exists [R]. split; [constructor|split; [reflexivity|]].
        repeat constructor. exact E.
      + intros (vs & P & _ & H). inversion P; subst; try lia. cbn [combine] in H. inversion H as [|? g ? gs' E1 E2]; subst. inversion E2; subst. cbn [fst snd] in E1. rewrite E1. reflexivity.
    - destruct L as [l|].
      + change (arguments [t1; t2] (Some l) R) with (let* g1 := export R t1 in let* g2 := export l t2 in Ok [g1; g2]). change (zlen [t1; t2]) with 2. split.
        * destruct (export R t1) as [g1| |] eqn:E1; cbn [obind]; try discriminate. destruct (export l t2) as [g2| |] eqn:E2; cbn [obind]; try discriminate.
          intros X. injection X as <-. exists [R; l]. split; [constructor|split; [reflexivity|]]. repeat constructor; assumption.
        * intros (vs & P & _ & H). inversion P; subst. cbn [combine] in H. inversion H as [|? g ? gs' E1 E2]; subst. inversion E2 as [|? g' ? gs'' E3 E4]; subst. inversion E4; subst.
          cbn [fst snd] in *. rewrite E1. cbn [obind]. rewrite E3. reflexivity.
      + destruct R as [| | | | |ds l| |]; [split; [discriminate|intros (vs & P & _); inversion P; subst]..| | |]; [apply V; cbv; discriminate|split; [discriminate|intros (vs & P & _); inversion P]..].
    - assert (N : 2 <= zlen (t1 :: t2 :: t3 :: ts)) by (rewrite !zlen_cons; pose proof (zlen_nonneg ts); lia).
      assert (N3 : zlen (t1 :: t2 :: t3 :: ts) <> 2) by (rewrite !zlen_cons; pose proof (zlen_nonneg ts); lia).
      destruct L as [l|].
      + split; [discriminate|]. intros (vs & P & _). exfalso. inversion P; subst; lia.
      + destruct R as [| | | | |ds l| |]; [split; [discriminate|intros (vs & P & _); exfalso; inversion P; subst; lia]..| | |];
          [apply V; exact N|split; [discriminate|intros (vs & P & _); exfalso; inversion P; subst; lia]..].
  Qed.
  (* The results: an error is returned, no result is the empty array, one result is this value and
     more of them are a list. *)
  Theorem C130_results f L R args : arguments (f_in f) L R = Ok args ->
    match f_call f args with
    | (_, Some true) => gocall f L R = Err
    | ([], _) => gocall f L R = Ok (RVal AEmp)
    | ([g], _) => forall v t, is_go v t g -> gocall f L R = Ok (RVal v)
    | (gs, _) => forall vs ts, Forall2 (fun p g => is_go (fst p) (snd p) g) (combine vs ts) gs -> length vs = length gs -> length ts = length gs ->
                   gocall f L R = Ok (RList vs)
    end.
  Proof.
    intros A. unfold M_Xgo.gocall. rewrite A. cbn [obind]. destruct (f_call f args) as [out e].
    destruct out as [|g [|g2 out]]; (destruct e as [[|]|]; [reflexivity| |]); try reflexivity;
      try (intros v t H; rewrite (proj2 (go_both t v g H)); reflexivity);
      (intros vs ts H L1 L2; assert (E : mapM Convert (g :: g2 :: out) = Ok vs); [|rewrite E; reflexivity]);
      clear - float_of rune_of H L1 L2; remember (g :: g2 :: out) as gs eqn:Eg; clear Eg g g2 out; revert vs ts H L1 L2;
      (induction gs as [|g gs IH]; intros [|v vs] [|t ts] H L1 L2; try discriminate L1; try discriminate L2; [reflexivity|]);
      cbn [combine] in H; inversion H as [|? ? ? ? H1 H2]; subst; cbn [fst snd] in H1; cbn [mapM]; rewrite (proj2 (go_both t v g H1)); cbn [obind];
      rewrite (IH vs ts H2) by (injection L1; injection L2; auto); reflexivity.
  Qed.
  (* Three arguments or more cannot be given with a left argument: reflect panics. *)
  Theorem C130_dyadic_partial f l R t1 t2 t3 ts : f_in f = t1 :: t2 :: t3 :: ts -> gocall f (Some l) R = Panic.
  Proof. intros E. unfold M_Xgo.gocall. rewrite E. reflexivity. Qed.

  (* ---------- C131: fields ---------- *)
  Context (teqb : text -> text -> bool) (upper : text -> text).
  Local Notation struct := (@struct F Cx text).
  Local Notation xAt := (@xAt F Cx text teqb upper).
  Local Notation xSet := (@xSet F Cx text float_of rune_of teqb).
  Local Notation field := (@field F Cx text teqb).
  Definition equality : Prop := forall a b, teqb a b = true <-> a = b.
  Lemma field_set (T : equality) l n m g : field (set_field teqb l n g) m =
    if teqb n m then match field l n with Some (t, _) => Some (t, g) | None => None end else field l m.
  Proof.
    induction l as [|[k [t x]] l IH]; cbn [set_field M_Xgo.field]; [destruct (teqb n m); reflexivity|].
    destruct (teqb k n) eqn:K; cbn [M_Xgo.field fst].
    - apply T in K. subst k. destruct (teqb n m) eqn:E; [reflexivity|]. reflexivity.
    - rewrite IH. destruct (teqb n m) eqn:E; [|destruct (teqb k m); reflexivity].
      apply T in E. subst m. rewrite K. reflexivity.
  Qed.
  (* A field that was set to a value of its type has this value; the other fields and the methods
     are as before. *)
  Theorem C131_set (T : equality) s n v t g g0 : field (s_fields s) n = Some (t, g0) -> is_go v t g -> upper n = n -> existsb (teqb n) (s_methods s) = false ->
    exists s', xSet s n v = Ok s' /\ xAt s' n = Some (Field v) /\ (forall m, upper m <> n -> xAt s' m = xAt s m) /\
               (forall m, option_map fst (field (s_fields s') m) = option_map fst (field (s_fields s) m)).
  Proof.
    intros Fd G U M. destruct (go_both t v g G) as (E1 & E2). unfold M_Xgo.xSet. rewrite Fd, E1. cbn [obind]. eexists. split; [reflexivity|].
    unfold M_Xgo.xAt. cbn [s_fields s_methods]. rewrite U, M, field_set by exact T. rewrite (proj2 (T n n) eq_refl), Fd, E2. split; [reflexivity|]. split.
    - intros m Hm. rewrite field_set by exact T. destruct (teqb n (upper m)) eqn:E; [apply T in E; congruence|]. reflexivity.
    - intros m. rewrite field_set by exact T. destruct (teqb n m) eqn:E; [|reflexivity]. apply T in E. subst m. rewrite Fd. reflexivity.
  Qed.
  (* Only fields of the struct can be set, and to values that can be passed to Go. *)
  Theorem C131_errors s n v s' : xSet s n v = Ok s' -> exists t g0 g, field (s_fields s) n = Some (t, g0) /\ export v t = Ok g.
  Proof.
    unfold M_Xgo.xSet. destruct (field (s_fields s) n) as [[t g0]|]; [|discriminate]. destruct (export v t) as [g| |] eqn:E; cbn [obind]; try discriminate.
    intros _. exists t, g0, g. split; [reflexivity|exact E].
  Qed.
  (* A name may start with a lower case letter when it is read, but not when it is set. *)
  Theorem C131_lower_refuted (T : equality) s n t g v : upper n <> n -> field (s_fields s) n = None -> field (s_fields s) (upper n) = Some (t, g) ->
    existsb (teqb (upper n)) (s_methods s) = false -> is_go v t g -> xAt s n = Some (Field v) /\ xSet s n v = Err.
  Proof.
    intros U N Fd M G. unfold M_Xgo.xAt, M_Xgo.xSet. rewrite N, M, Fd, (proj2 (go_both t v g G)). split; reflexivity.
  Qed.
End Props.
Print Assumptions C129_there_and_back.
Print Assumptions C129_back_and_there.
Print Assumptions C130_arguments.
Print Assumptions C130_results.
Print Assumptions C131_set.

(* the struct T of xgo/register.go:29-36 without its struct field: fields A, I and V, method Inc *)
Example C129_example : @is_go Z Z Z (AArr [2] [AArr [1] [AInt 3]; AArr [0] []]) (GTSlice (GTSlice GTInt)) (GSlice (GTSlice GTInt) [GSlice GTInt [GInt 3]; GSlice GTInt []])
  /\ @export Z Z Z (fun z => z) (fun z => z) (AArr [2; 2] [AInt 1; AInt 2; AInt 3; AInt 4]) (GTSlice GTInt) = Ok (GSlice GTInt [GInt 1; GInt 2; GInt 3; GInt 4]).
Proof.
  split; [|reflexivity].
  apply (is_slice [AArr [1] [AInt 3]; AArr [0] []] (GTSlice GTInt) [GSlice GTInt [GInt 3]; GSlice GTInt []]).
  repeat constructor; [apply (is_slice [AInt 3] GTInt [GInt 3]); repeat constructor|apply (is_slice [] GTInt []); constructor].
Qed.
Definition sub3 : @gofunc Z Z Z :=
  mkFunc [GTInt; GTInt] (fun l => match l with [GInt a; GInt b] => if b =? 0 then ([], Some true) else ([GInt (a / b); GInt (a mod b)], Some false) | _ => ([], None) end).
Example C130_example :
  gocall (fun z => z) (fun z => z) sub3 (Some (AInt 5)) (AInt 17) = Ok (RList [AInt 3; AInt 2])
  /\ gocall (fun z => z) (fun z => z) sub3 None (AArr [2] [AInt 17; AInt 5]) = Ok (RList [AInt 3; AInt 2])
  /\ gocall (fun z => z) (fun z => z) sub3 (Some (AInt 0)) (AInt 17) = Err
  /\ gocall (fun z => z) (fun z => z) sub3 None (AInt 17) = Err.
Proof. repeat split. Qed.
Definition exS : @struct Z Z Z := mkStruct [(65, (GTString, GString 7)); (73, (GTInt, GInt 1)); (86, (GTSlice GTString, GSlice GTString []))] [99].
(* 105 is i, 73 is I *)
Definition exU (n : Z) : Z := if 97 <=? n then n - 32 else n.
Example C131_example :
  equality Z.eqb /\ xAt Z.eqb exU exS 105 = Some (Field (AInt 1)) /\ xSet (fun z => z) (fun z => z) Z.eqb exS 105 (AInt 4) = Err
  /\ exists s, xSet (fun z => z) (fun z => z) Z.eqb exS 73 (AInt 4) = Ok s /\ xAt Z.eqb exU s 73 = Some (Field (AInt 4)) /\ xAt Z.eqb exU s 65 = Some (Field (AStr 7)).
Proof. split; [intros a b; apply Z.eqb_eq|]. repeat split. eexists. repeat split. Qed.
