(* P_Programs.v -- lemmas for the programs of M_Programs. *)
From Coq Require Import List Bool ZArith Lia.
From Verif Require Import Base Eff M_Array S_Array P_Array M_Structural S_Structural P_Structural M_Number S_Number P_Number P_Tower M_Scalar P_Scalar M_Search S_Search M_Reduce S_Reduce P_Reduce M_Operators S_Operators P_Operators M_Stencil S_Stencil P_Stencil
  Prop_Structural Prop_Number Prop_Scalar Prop_Reduce Prop_Operators Prop_Stencil M_Programs S_Programs.
Import ListNotations.
Open Scope list_scope. Open Scope Z_scope.

Section Programs.
  Context {P : Type} (M : methods P) (t : tower P) (has_uniform : ntype -> bool).
  Local Notation sv := (sval P).
  Definition isint (v : sv) (k : Z) : Prop := exists n, v = VNum n /\ as_int n = Some k.

  Lemma yields_value ds (g : list Z -> sv) (o : outcome (sres P)) : ds <> [] -> yields o ds g -> exists r, omap value_of o = Ok (Arr r) /\ is_array ds (fun idx => Some (g idx)) r.
  Proof.
    intros N0 (r & -> & A). exists (view r). split; [|exact A]. cbn [omap value_of]. destruct r; try reflexivity. exfalso. destruct A as (_ & A & _). cbn in A. congruence.
  Qed.
  Lemma dy_left f x (b : arr sv) g : wf b -> dims b <> [] ->
    (forall idx, inb (dims b) idx -> exists y, elem b idx = Some y /\ arith2 M t f x y = Ok (g idx)) ->
    exists r, dy M t has_uniform f (Scal x) (Arr b) = Ok (Arr r) /\ is_array (dims b) (fun idx => Some (g idx)) r.
  Proof. intros W N0 H. apply yields_value; [exact N0|]. apply C45_scalar_left; assumption. Qed.
  Lemma dy_same f (a b : arr sv) g : wf a -> wf b -> dims a = dims b -> dims a <> [] -> size (dims a) <> 0 ->
    (forall idx, inb (dims a) idx -> exists x y, elem a idx = Some x /\ elem b idx = Some y /\ arith2 M t f x y = Ok (g idx)) ->
    exists r, dy M t has_uniform f (Arr a) (Arr b) = Ok (Arr r) /\ is_array (dims a) (fun idx => Some (g idx)) r.
  Proof. intros Wa Wb D N0 Sz H. apply yields_value; [exact N0|]. apply C45_equal_shapes; assumption. Qed.

  Lemma add_ints x y i j : isint x i -> isint y j -> fits (i + j) -> arith2 M t (add2 M) x y = Ok (int (i + j)).
  Proof. intros (a & -> & Ha) (b & -> & Hb) F. apply (C47_exact_when_it_fits P M t a b i j Ha Hb). exact F. Qed.
  Lemma sub_ints x y i j : isint x i -> isint y j -> fits (i - j) -> arith2 M t (sub2 M) x y = Ok (int (i - j)).
  Proof. intros (a & -> & Ha) (b & -> & Hb) F. apply (C47_exact_when_it_fits P M t a b i j Ha Hb). exact F. Qed.
  Lemma mul_ints x y i j : isint x i -> isint y j -> fits (i * j) -> arith2 M t (mul2 M) x y = Ok (int (i * j)).
  Proof. intros (a & -> & Ha) (b & -> & Hb) F. apply (C47_exact_when_it_fits P M t a b i j Ha Hb). exact F. Qed.
  Lemma eq_ints x y i j : isint x i -> isint y j -> arith2 M t (compare M CEq) x y = Ok (VNum (NB (i =? j))).
  Proof.
    intros (a & -> & Ha) (b & -> & Hb). pose proof (zlen_nonneg (Numbers t)) as Hn. unfold arith2.
    destruct a as [a|a|a], b as [b|b|b]; cbn in Ha, Hb; try discriminate; injection Ha as <-; injection Hb as <-; cbn; try reflexivity.
    - destruct a, b; reflexivity.
    - destruct (Z.to_nat (zlen (Numbers t) - -1)) eqn:E; [lia|]. reflexivity.
    - destruct (Z.to_nat (zlen (Numbers t) - -1)) eqn:E; [lia|]. reflexivity.
  Qed.
  Lemma and_truths x y a b : truth_value x a -> truth_value y b -> arith2 M t (logical M LAnd) x y = Ok (VNum (NB (a && b))).
  Proof.
    intros (m & -> & Ha) (n & -> & Hb). pose proof (zlen_nonneg (Numbers t)) as Hn. unfold arith2.
    destruct m as [m|m|m], n as [n|n|n]; cbn in Ha, Hb; try discriminate; injection Ha as Ha; injection Hb as Hb; cbn;
      try (destruct (Z.to_nat (zlen (Numbers t) - -1)) eqn:E; [lia|]); cbn; subst; destruct a, b; cbn in *; try discriminate;
      try (destruct m; try discriminate); try (destruct n; try discriminate); reflexivity.
  Qed.
  Lemma truth_isint v b : truth_value v b <-> isint v (if b then 1 else 0).
  Proof. split; intros H; exact H. Qed.
  Lemma isint_int k : isint (int k) k.
  Proof. exists (NI k). split; reflexivity. Qed.
  Lemma isint_bool b : isint (VNum (NB b)) (if b then 1 else 0).
  Proof. exists (NB b). split; destruct b; reflexivity. Qed.

  (* sums of small integers *)
  Lemma sum_bound ks B : Forall (fun k => 0 <= k <= B) ks -> 0 <= sumZ ks <= zlen ks * B.
  Proof. induction 1 as [|k ks H _ IH]; [cbn; lia|]. rewrite zlen_cons. cbn [sumZ fold_right]. fold (sumZ ks). lia. Qed.
  Lemma fold_sum B : forall l ks, Forall2 isint l ks -> l <> [] -> Forall (fun k => 0 <= k <= B) ks -> zlen ks * B < 2 ^ 63 ->
    exists v, fold1 (op2 M t (plus M)) l Datatypes.tt = (Ok v, Datatypes.tt) /\ isint v (sumZ ks) /\ (2 <= zlen l -> v = int (sumZ ks)).
  Proof.
    induction 1 as [|x k l ks Hx F IH]; intros N0 Fb Hb; [congruence|]. destruct l as [|y l].
    - inversion F; subst. exists x. split; [reflexivity|]. split; [|intros C; exfalso; rewrite zlen_cons, zlen_nil in C; lia]. cbn. replace (k + 0) with k by lia. exact Hx.
    - inversion Fb as [|? ? Hk Fb']. subst. rewrite zlen_cons in Hb. pose proof (sum_bound _ _ Fb') as SB. pose proof (zlen_nonneg ks).
      destruct IH as (v & E & Iv & _); [discriminate|exact Fb'|nia|].
      exists (int (k + sumZ ks)). split; [|split; [apply isint_int|reflexivity]].
      change (fold1 (op2 M t (plus M)) (x :: y :: l)) with (let! w := fold1 (op2 M t (plus M)) (y :: l) in op2 M t (plus M) x w). unfold ebind. rewrite E. unfold op2, elift, plus. rewrite (add_ints x v k (sumZ ks) Hx Iv); [reflexivity|].
      unfold fits. nia.
  Qed.

  (* the elements of an array in row-major order *)
  Lemma elems_isint (a : arr sv) (k : list Z -> Z) : wf a -> (forall q, inb (dims a) q -> exists v, elem a q = Some v /\ isint v (k q)) ->
    Forall2 isint (elems a) (map k (all_idx (dims a))).
  Proof.
    intros W H. destruct (C16_ravel_row_major sv a W) as (_ & E).
    assert (F : Forall (fun q => inb (dims a) q) (all_idx (dims a))) by (apply Forall_forall; intros q Hq; apply In_all_idx; exact Hq).
    revert E F. generalize (all_idx (dims a)) as idx. generalize (elems a) as l. clear W. induction l as [|x l IH]; intros idx E F.
    - destruct idx; [constructor|discriminate E].
    - destruct idx as [|q idx]; [discriminate E|]. cbn [map] in E |- *. injection E as E1 E2. inversion F as [|? ? Hq F']. subst.
      constructor; [|apply IH; assumption]. destruct (H q Hq) as (v & Ev & Iv). rewrite <- E1 in Ev. injection Ev as <-. exact Iv.
  Qed.

  (* ---------- life ---------- *)
  Section Life.
    Context (r c : Z) (cell : Z -> Z -> bool) (a : arr sv) (B : board r c cell a) (Hr : 1 <= r) (Hc : 1 <= c).
    Let b2z (b : bool) : Z := if b then 1 else 0.
    Definition total (p : list Z) : Z :=
      match p with [i; j] => Z.of_nat (living r c cell i j) + b2z (cell i j) | _ => 0 end.
    Lemma inb2 n m q : inb [n; m] q -> exists i j, q = [i; j] /\ 0 <= i < n /\ 0 <= j < m.
    Proof. intros H. inversion H as [|? i ? q1 Hi H1]. subst. inversion H1 as [|? j ? q2 Hj H2]. subst. inversion H2. subst. exists i, j. auto. Qed.
    Lemma inb2_intro n m i j : 0 <= i < n -> 0 <= j < m -> inb [n; m] [i; j].
    Proof. intros. repeat constructor; lia. Qed.
    Lemma window_cell i j win u v : 0 <= i < r -> 0 <= j < c -> window_at (int 0) a [3; 3] [i; j] win -> 0 <= u < 3 -> 0 <= v < 3 ->
      exists x, elem win [u; v] = Some x /\ isint x (b2z (inside r c cell (i + u - 1) (j + v - 1))).
    Proof using B.
      intros Hi Hj (W & D & H) Hu Hv. destruct (H [u; v] (inb2_intro _ _ _ _ Hu Hv)) as [H1 H2].
      unfold below in H1, H2. cbn [combine map fst snd] in H1, H2. change (3 / 2) with 1 in H1, H2.
      destruct B as (Wa & Da & Ha). rewrite Da in H1, H2. unfold inside.
      destruct ((0 <=? i + u - 1) && (i + u - 1 <? r) && (0 <=? j + v - 1) && (j + v - 1 <? c)) eqn:E.
      - rewrite H1 by (apply inb2_intro; lia). destruct (Ha (i + u - 1) (j + v - 1)) as (x & Ex & Tx); [lia|lia|]. exists x. split; [exact Ex|exact Tx].
      - rewrite H2. { exists (int 0). split; [reflexivity|apply isint_int]. }
        intros C. apply inb2 in C. destruct C as (x & y & E1 & Hx & Hy). injection E1 as E1 E2. lia.
    Qed.
    Lemma around_total i j win : 0 <= i < r -> 0 <= j < c -> window_at (int 0) a [3; 3] [i; j] win ->
      around M t win Datatypes.tt = (Ok (Scal (int (total [i; j]))), Datatypes.tt).
    Proof using B.
      intros Hi Hj Hw. pose proof Hw as (W & D & _).
      assert (F : Forall2 isint (elems win) (map (fun q => match q with [u; v] => b2z (inside r c cell (i + u - 1) (j + v - 1)) | _ => 0 end) (all_idx [3; 3]))).
      { rewrite <- D. apply elems_isint; [exact W|]. rewrite D. intros q Hq. apply inb2 in Hq. destruct Hq as (u & v & -> & Hu & Hv). apply (window_cell i j win u v); assumption. }
      unfold around. destruct (C16_ravel_row_major sv win W) as (-> & _). pose proof (Forall2_zlen _ _ _ F) as Z0. change (all_idx [3; 3]) with [[0;0];[0;1];[0;2];[1;0];[1;1];[1;2];[2;0];[2;1];[2;2]] in F, Z0.
      cbn [map] in F, Z0. change (zlen (elems win) = 9) in Z0.
      rewrite C32_reduce_vector by lia. unfold emap, ebind.
      destruct (fold_sum 1 _ _ F) as (v & E & _ & Ev).
      { intros N0. rewrite N0 in Z0. discriminate Z0. }
      { clear. repeat (apply Forall_cons; [unfold b2z; match goal with |- context [if ?b then _ else _] => destruct b end; lia|]). apply Forall_nil. }
      { reflexivity. }
      rewrite E, (Ev ltac:(lia)). unfold eret. do 4 f_equal. unfold total, living, neighbours.
      replace (i + 0 - 1) with (i - 1) by lia. replace (i + 1 - 1) with i by lia. replace (i + 2 - 1) with (i + 1) by lia.
      replace (j + 0 - 1) with (j - 1) by lia. replace (j + 1 - 1) with j by lia. replace (j + 2 - 1) with (j + 1) by lia.
      replace (inside r c cell i j) with (cell i j) by (unfold inside; replace ((0 <=? i) && (i <? r) && (0 <=? j) && (j <? c)) with true by lia; reflexivity).
      cbn [filter fst snd].
      destruct (inside r c cell (i - 1) (j - 1)), (inside r c cell (i - 1) j), (inside r c cell (i - 1) (j + 1)), (inside r c cell i (j - 1)), (inside r c cell i (j + 1)),
        (inside r c cell (i + 1) (j - 1)), (inside r c cell (i + 1) j), (inside r c cell (i + 1) (j + 1)), (cell i j); reflexivity.
    Qed.
    Lemma life_step : exists a', life M t has_uniform (Arr a) = Ok (Arr a') /\ board r c (next_generation r c cell) a'.
    Proof using B Hr Hc.
      pose proof B as (W & D & Ha).
      assert (Rk : zlen (dims a) = 2) by (rewrite D; reflexivity).
      set (win := fun p => window (int 0) a [3; 3] p).
      assert (WIN : forall p, inb (dims a) p -> window_at (int 0) a [3; 3] p (win p)).
      { intros p Hp. apply window_spec; [exact W|repeat constructor; lia|rewrite D; reflexivity|exact Hp]. }
      unfold life, pure.
      rewrite (C123_windows (int 0) (fun _ => around M t) (mkArr [2] [3; 3]) a [3; 3] win Datatypes.tt W); [|split; [repeat split; try discriminate; repeat constructor; lia|]; left; exists 2; rewrite Rk; repeat split; lia|repeat constructor; lia|exact WIN].
      unfold ebind at 1.
      rewrite (mapE_ok_pure _ (fun p => int (total p))).
      2:{ intros p [] Hp. apply In_all_idx in Hp. pose proof (WIN p Hp) as Wp. rewrite D in Hp. apply inb2 in Hp. destruct Hp as (i & j & -> & Hi & Hj). unfold ebind. rewrite (around_total i j) by assumption. reflexivity. }
      unfold eret. cbn [fst obind]. rewrite D. set (S := mkArr [r; c] (map (fun p => int (total p)) (all_idx [r; c]))).
      assert (Nn : Forall (fun d => 0 <= d) [r; c]) by (repeat constructor; lia).
      assert (WS : wf S) by (apply wf_build; [discriminate|exact Nn]).
      assert (ES : forall p, inb [r; c] p -> elem S p = Some (int (total p))) by (intros p Hp; unfold S; rewrite elem_build by exact Hp; reflexivity).
      assert (Sz : size [r; c] <> 0) by (cbn [size]; nia).
      destruct (dy_left (eq_ M) (int 4) S (fun p => VNum (NB (4 =? total p))) WS) as (E & -> & WE & DE & EE); [discriminate| |].
      { intros p Hp. exists (int (total p)). split; [apply ES; exact Hp|]. apply eq_ints; apply isint_int. }
      cbn [obind]. cbn [S dims] in DE, EE.
      assert (TT : forall i j, 0 <= i < r -> 0 <= j < c -> exists v, elem a [i; j] = Some v /\ truth_value v (cell i j)) by exact Ha.
      destruct (dy_same (logical M LAnd) a E (fun p => match p with [i; j] => VNum (NB (cell i j && (4 =? total p))) | _ => int 0 end) W WE) as (Bo & -> & WB & DB & EB); [congruence|rewrite D; discriminate|rewrite D; exact Sz| |].
      { rewrite D. intros p Hp. pose proof (EE p Hp) as Ep. apply inb2 in Hp. destruct Hp as (i & j & -> & Hi & Hj). destruct (TT i j Hi Hj) as (v & Ev & Tv).
        exists v, (VNum (NB (4 =? total [i; j]))). split; [exact Ev|]. split; [exact Ep|]. apply and_truths; [exact Tv|]. exists (NB (4 =? total [i; j])). split; [reflexivity|]. destruct (4 =? total [i; j]); reflexivity. }
      cbn [obind]. rewrite D in DB, EB.
      destruct (dy_same (sub2 M) S Bo (fun p => match p with [i; j] => int (total p - b2z (cell i j && (4 =? total p))) | _ => int 0 end) WS WB) as (Df & -> & WD & DD & ED); [cbn; congruence|discriminate|exact Sz| |].
      { cbn [S dims]. intros p Hp. pose proof (ES p Hp) as Ep. pose proof (EB p Hp) as Eb. apply inb2 in Hp. destruct Hp as (i & j & -> & Hi & Hj).
        eexists _, _. split; [exact Ep|]. split; [exact Eb|]. apply sub_ints; [apply isint_int|apply isint_bool|].
        assert (0 <= total [i; j] <= 9). { unfold total. assert (FL : forall l : list (Z * Z), (length (filter (fun p => inside r c cell (fst p) (snd p)) l) <= length l)%nat) by (clear; induction l as [|x l IH]; cbn; [lia|destruct (inside r c cell (fst x) (snd x)); cbn; lia]). specialize (FL (neighbours i j)). fold (living r c cell i j) in FL. change (length (neighbours i j)) with 8%nat in FL. unfold b2z. destruct (cell i j); lia. }
        unfold fits, b2z. destruct (cell i j && (4 =? total [i; j])); lia. }
      cbn [obind]. cbn [S dims] in DD, ED.
      destruct (dy_left (eq_ M) (int 3) Df (fun p => match p with [i; j] => VNum (NB (next_generation r c cell i j)) | _ => int 0 end) WD) as (F & EF & WF & DF & FF); [rewrite DD; discriminate| |].
      { rewrite DD. intros p Hp. pose proof (ED p Hp) as Ep. apply inb2 in Hp. destruct Hp as (i & j & -> & Hi & Hj).
        eexists. split; [exact Ep|]. unfold eq_. rewrite (eq_ints _ _ _ _ (isint_int 3) (isint_int _)). do 3 f_equal. clear. unfold next_generation, total, b2z.
        destruct (cell i j); cbn [andb]; destruct (living r c cell i j) as [|[|[|[|n]]]]; try reflexivity; cbn [Z.of_nat]; try lia.
        + destruct (4 =? Z.pos (Pos.of_succ_nat (Datatypes.S (Datatypes.S (Datatypes.S n)))) + 1) eqn:E; lia.
        }
      exists F. split; [exact EF|]. rewrite DD in DF, FF. split; [exact WF|]. split; [exact DF|]. intros i j Hi Hj. eexists. split; [apply FF; apply inb2_intro; assumption|].
      exists (NB (next_generation r c cell i j)). split; [reflexivity|]. destruct (next_generation r c cell i j); reflexivity.
    Qed.
  End Life.
End Programs.
