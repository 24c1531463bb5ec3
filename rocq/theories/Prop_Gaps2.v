(* Prop_Gaps2.v -- the remaining cases of C14 (ranks that differ by two, the default axis) and of C54
   (empty arguments). *)
From Coq Require Import Lia.
From Verif Require Import Base M_Array S_Array P_Array M_Structural P_Comma M_Decode Prop_Structural.
Open Scope Z_scope.

(* ---------- C14 ---------- *)
(* without an axis the last axis of the right argument is meant, also if the left one has more axes *)
Theorem C14_default_axis : forall A origin (L R : arr A), dims R <> [] ->
  catenate origin (Arr L) (Arr R) AxNone = catenate origin (Arr L) (Arr R) (AxInt (zlen (dims R) - 1 + origin)).
Proof.
  intros A origin L R N. unfold catenate, splitCatAxis. cbn [shapeOf]. assert (0 < zlen (dims R)) by (destruct (dims R); [congruence|rewrite zlen_cons; pose proof (zlen_nonneg l); lia]).
  replace (zlen (dims R) - 1 + origin - origin) with (zlen (dims R) - 1) by lia.
  replace ((zlen (dims R) - 1 <? 0) || (Z.max (zlen (dims L)) (zlen (dims R)) <=? zlen (dims R) - 1))%bool with false by lia. reflexivity.
Qed.
(* a scalar on the right without an axis goes behind the first axis *)
Theorem C14_default_axis_scalar : forall A origin (L : arr A) (s : A), dims L <> [] ->
  catenate origin (Arr L) (Scal s) AxNone = catenate origin (Arr L) (Scal s) (AxInt origin).
Proof.
  intros A origin L s N. unfold catenate, splitCatAxis. cbn [shapeOf]. assert (0 < zlen (dims L)) by (destruct (dims L); [congruence|rewrite zlen_cons; pose proof (zlen_nonneg l); lia]).
  replace (origin - origin) with 0 by lia.
  replace ((0 <? 0) || (Z.max (zlen (dims L)) (zlen (@nil Z)) <=? 0))%bool with false by (change (zlen (@nil Z)) with 0; lia). reflexivity.
Qed.
(* the axes of the shorter shape, except x, are those the longer one begins with *)
Definition starts_but (x : Z) (sl sr : list Z) : Prop := forall i, 0 <= i < zlen sr -> i <> x -> znth sl i = znth sr i.
Lemma cat_shape_short : forall sl sr x i, zlen sr < zlen sl ->
  (starts_but (x - i) sl sr -> cat_shape sl sr x i = Panic) /\ (~ starts_but (x - i) sl sr -> cat_shape sl sr x i = Err).
Proof.
  induction sl as [|l sl IH]; intros sr x i L; [pose proof (zlen_nonneg sr); change (zlen (@nil Z)) with 0 in L; lia|].
  destruct sr as [|r sr]; cbn [cat_shape].
  - split; [reflexivity|]. intros N. exfalso. apply N. intros j Hj. change (zlen (@nil Z)) with 0 in Hj. lia.
  - rewrite !zlen_cons in L. destruct (IH sr x (i + 1) ltac:(lia)) as (P & E).
    assert (S1 : starts_but (x - i) (l :: sl) (r :: sr) -> starts_but (x - (i + 1)) sl sr).
    { intros H j Hj Nj. specialize (H (j + 1)). rewrite zlen_cons, !znth_cons_pos in H by lia. replace (j + 1 - 1) with j in H by lia. apply H; lia. }
    assert (S2 : starts_but (x - (i + 1)) sl sr -> (i = x \/ l = r) -> starts_but (x - i) (l :: sl) (r :: sr)).
    { intros H Q j Hj Nj. rewrite zlen_cons in Hj. destruct (Z.eq_dec j 0) as [->|J]; [rewrite !znth_cons_0; destruct Q; [lia|congruence]|]. rewrite !znth_cons_pos by lia. apply H; lia. }
    destruct (Z.eqb_spec i x) as [->|NX].
    + split; intros H; [rewrite P by auto; reflexivity|]. rewrite E by (intros X; apply H; apply S2; auto). reflexivity.
    + destruct (Z.eqb_spec l r) as [->|NE].
      * split; intros H; [rewrite P by auto; reflexivity|]. rewrite E by (intros X; apply H; apply S2; auto). reflexivity.
      * split; intros H; [|reflexivity]. exfalso. apply NE. specialize (H 0 ltac:(rewrite zlen_cons; pose proof (zlen_nonneg sr); lia) ltac:(lia)). rewrite !znth_cons_0 in H. congruence.
Qed.
(* Finding: a left argument with two more axes is never joined, but it is not always refused with an error: it panics
   if the axes of R, except the axis x of the catenation, are those L begins with (comma.go:263 tests d > 2) *)
Theorem C14_two_more_axes : forall A origin (L R : arr A) ax x,
  size (dims L) <> 0 -> size (dims R) <> 0 -> wf L -> wf R ->
  (ax = AxNone /\ x = zlen (dims R) - 1 \/ ax = AxInt (x + origin) /\ 0 <= x < zlen (dims L)) ->
  zlen (dims L) = zlen (dims R) + 2 ->
  (starts_but x (dims L) (dims R) -> catenate origin (Arr L) (Arr R) ax = Panic) /\
  (~ starts_but x (dims L) (dims R) -> catenate origin (Arr L) (Arr R) ax = Err).
Proof.
  intros A origin L R ax x SL SR WL WR HX D. pose proof (zlen_nonneg (dims R)) as Z0.
  assert (SA : splitCatAxis origin (Arr L) (Arr R) ax = Ok (x, false)).
  { destruct HX as [(-> & ->)|(-> & HX)]; [reflexivity|]. unfold splitCatAxis. cbn [shapeOf]. replace (x + origin - origin) with x by lia.
    replace ((x <? 0) || (Z.max (zlen (dims L)) (zlen (dims R)) <=? x))%bool with false by lia. reflexivity. }
  unfold catenate. rewrite SA. cbn [obind fst snd isArray andb sizeOf shapeOf asArr].
  assert (NL : dims L <> []) by apply WL. assert (NR : dims R <> []) by apply WR.
  unfold sizeOf. cbn [elemsOf]. rewrite (proj2 (proj2 WL)), (proj2 (proj2 WR)). replace (size (dims L) =? 0) with false by lia. replace (size (dims R) =? 0) with false by lia. cbn [obind].
  replace (zlen (dims L) - zlen (dims R)) with 2 by lia. cbn [Z.eqb Z.ltb Z.compare negb andb orb Pos.eqb obind]. unfold cat_join.
  destruct (cat_shape_short (dims L) (dims R) x 0 ltac:(lia)) as (P & E). rewrite Z.sub_0_r in P, E. split; intros H; [rewrite (P H)|rewrite (E H)]; reflexivity.
Qed.
Print Assumptions C14_default_axis. Print Assumptions C14_default_axis_scalar. Print Assumptions C14_two_more_axes.
Example C14_two_example : wf (mkArr [2; 2; 2] [1;2;3;4;5;6;7;8]) /\ wf (vec [8; 9]) /\ starts_but 0 [2; 2; 2] [2] /\ ~ starts_but 2 [2; 2; 2] [3].
Proof.
  split; [split; [discriminate|split; [repeat (constructor; [lia|]); constructor|reflexivity]]|]. split; [split; [discriminate|split; [repeat (constructor; [cbn; lia|]); constructor|reflexivity]]|].
  split; [intros i Hi _; change (zlen [2]) with 1 in Hi; replace i with 0 by lia; reflexivity|]. intros H. specialize (H 0 ltac:(cbn; lia) ltac:(lia)). discriminate H.
Qed.

(* ---------- C54 ---------- *)
Section C54.
  Context {V : Type} (ops : arith V).
  Definition axes (v : val V) : list Z := match v with Emp => [0] | Scal _ => [] | Arr a => dims a end.
  (* if one side is ⍬ the result of ⊤ has the axes of both and no elements *)
  Theorem C54_encode_empty : forall nil L R, L = Emp \/ R = Emp -> (forall a, L = Arr a \/ R = Arr a -> wf a) ->
    encode ops nil L R = Ok (Arr (mkArr (axes L ++ axes R) [])).
  Proof.
    intros nil L R HE W.
    assert (E : encode ops nil L R = rho2 (a_int ops 0) (axes L ++ axes R) (Arr (mkArr [1] [a_int ops 0]))) by (destruct HE as [-> | ->]; [reflexivity|destruct L; reflexivity]).
    rewrite E. assert (FN : Forall (fun d => 0 <= d) (axes L ++ axes R)).
    { apply Forall_app. split; [destruct L|destruct R]; cbn [axes]; try (repeat constructor; lia); eapply (W a); auto. }
    assert (ZI : In 0 (axes L ++ axes R)) by (apply in_or_app; destruct HE as [-> | ->]; cbn; auto).
    assert (NN : axes L ++ axes R <> []) by (intros X; rewrite X in ZI; destruct ZI).
    set (sh := axes L ++ axes R) in *. assert (SZ : size sh = 0). { clear - FN ZI. induction sh as [|d s IH]; [destruct ZI|]. cbn [size fold_right]. change (fold_right Z.mul 1 s) with (size s). inversion FN; subst. destruct ZI as [->|ZI]; [lia|]. rewrite IH by assumption. lia. }
    unfold rho2. destruct sh as [|d s] eqn:Es; [congruence|]. rewrite <- Es in *. cbn [asArr].
    unfold ReshapeUser. rewrite Prod_size by exact NN. rewrite SZ. reflexivity.
  Qed.
  (* Finding: L⊥⍬ and ⍬⊥R panic (decode.go:33 indexes the shape of ⍬) *)
  Theorem C54_decode_empty_refuted : forall v, decode ops v Emp = Panic /\ (forall a, wf a -> decode ops Emp (Arr a) = Panic) /\ (forall x, decode ops Emp (Scal x) = Panic).
  Proof.
    intros v. split; [|split].
    - unfold decode. destruct (zat (dims (toArray v)) (zlen (dims (toArray v)) - 1)) eqn:E; cbn [obind]; try reflexivity. exfalso. unfold zat in E. destruct (znth _ _); discriminate E.
    - reflexivity.
    - reflexivity.
  Qed.
End C54.
Print Assumptions C54_encode_empty. Print Assumptions C54_decode_empty_refuted.
