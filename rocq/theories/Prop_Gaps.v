(* Prop_Gaps.v -- statements added where a wrong program was not noticed: the functions ⌽ ⊖ by
   name (C05, C06, C07), ravel with a fraction as axis (C16), expand with an empty left argument
   (C37), indexed queries (C108), exponentials of exact numbers (C136), division by zero
   of floats and logarithms with a base (C137), texts without values (C112, C113), upper-case letters
   of Latin-1 (C96), the program without tokens (C162). *)
From Coq Require Import String QArith Qabs Lia.
From Verif Require Import Base M_Array S_Array P_Array M_Structural S_Structural P_Structural P_Comma P_Decode5 Prop_Structural.
Open Scope Z_scope.

Lemma znth_end {A} (l : list A) x : znth (l ++ [x]) (zlen l) = Some x.
Proof. rewrite znth_app_r, Z.sub_diag; [reflexivity|lia]. Qed.

(* ⊖A reverses the first axis, ⌽A the last one *)
Theorem C05_first : forall (A : Type) (a : arr A) n rest, wf a -> dims a = n :: rest ->
  exists r, revFirst (Arr a) = Ok (Arr r) /\ wf r /\ dims r = dims a /\
    forall i idx, inb (dims a) (i :: idx) -> elem r (i :: idx) = elem a ((n - 1 - i) :: idx).
Proof.
  intros A a n rest Hw Hd. destruct (C05_reverse A a 0 n Hw) as (r & E & Wr & Dr & H); [rewrite Hd; reflexivity|].
  exists r. split; [exact E|]. split; [exact Wr|]. split; [exact Dr|]. intros i idx Hi. rewrite (H (i :: idx) i Hi eq_refl). reflexivity.
Qed.
Theorem C05_last : forall (A : Type) (a : arr A) n rest, wf a -> dims a = rest ++ [n] ->
  exists r, revLast (Arr a) = Ok (Arr r) /\ wf r /\ dims r = dims a /\
    forall i idx, inb (dims a) (idx ++ [i]) -> elem r (idx ++ [i]) = elem a (idx ++ [n - 1 - i]).
Proof.
  intros A a n rest Hw Hd.
  assert (K : norm_axis (zlen (dims a)) (-1) = zlen rest) by (rewrite Hd, zlen_app; unfold norm_axis; change (zlen [n]) with 1; cbn [Z.ltb Z.compare]; lia).
  destruct (C05_reverse A a (-1) n Hw) as (r & E & Wr & Dr & H); [rewrite K, Hd; apply znth_end|]. rewrite K in H.
  exists r. split; [exact E|]. split; [exact Wr|]. split; [exact Dr|]. intros i idx Hi.
  assert (L : zlen idx = zlen rest) by (pose proof (inb_zlen _ _ Hi) as L; rewrite Hd, !zlen_app in L; change (zlen [i]) with 1 in L; change (zlen [n]) with 1 in L; lia).
  rewrite (H (idx ++ [i]) i Hi) by (rewrite <- L; apply znth_end). rewrite <- L. rewrite zupd_snoc. reflexivity.
Qed.
(* N⊖V and N⌽V: both rotate a vector *)
Theorem C06_named : forall (A : Type) n (v : list A), no_overflow n v ->
  exists r, rotLast (vec [n]) (Arr (vec v)) = Ok (Arr (vec r)) /\ rotFirst (vec [n]) (Arr (vec v)) = Ok (Arr (vec r)) /\ zlen r = zlen v /\
    forall i, 0 <= i < zlen v -> znth r i = znth v ((i + n) mod zlen v).
Proof.
  intros A n v W. destruct (C06_rotate_vector A n v (-1) W) as (r & E & L & H). destruct (C06_rotate_vector A n v 0 W) as (r' & E' & L' & H').
  exists r. split; [exact E|]. split; [|split; [exact L|exact H]]. unfold rotFirst. rewrite E'. do 3 f_equal. apply znth_ext; [lia|]. intros i Hi. rewrite H', H by lia. reflexivity.
Qed.
(* L⊖A rotates along the first axis, L⌽A along the last one *)
Theorem C07_first : forall (A : Type) (L : arr Z) (a : arr A) n rest, wf L -> wf a -> dims a = n :: rest -> dims L = rest ->
  Forall (fun c => - 2 ^ 63 <= c /\ c + n <= 2 ^ 63) (elems L) ->
  exists r, rotFirst L (Arr a) = Ok (Arr r) /\ wf r /\ dims r = dims a /\
    forall i idx c, inb (dims a) (i :: idx) -> elem L idx = Some c -> elem r (i :: idx) = elem a ((i + c) mod n :: idx).
Proof.
  intros A L a n rest HL Ha Hd HdL HW. assert (Hne : dims L <> []) by apply HL.
  assert (Hk : norm_axis (zlen (dims a)) 0 = 0) by reflexivity.
  destruct (C07_rotate_lines A L a 0 n HL Ha) as (r & E & Wr & Dr & H); [| | |exact HW|].
  - rewrite Hd, zlen_cons. destruct (dims L) as [|x l] eqn:El; [congruence|]. rewrite <- HdL, zlen_cons. pose proof (zlen_nonneg l). lia.
  - rewrite Hk, Hd. reflexivity.
  - rewrite Hk, Hd, HdL. reflexivity.
  - exists r. split; [exact E|]. split; [exact Wr|]. split; [exact Dr|]. intros i idx c Hi Hc. rewrite (H (i :: idx) i c Hi eq_refl Hc). reflexivity.
Qed.
Lemma del_end {A} (l : list A) x : del (zlen l) (l ++ [x]) = l.
Proof.
  unfold del. pose proof (zlen_nonneg l). unfold zlen. rewrite ?Z2Nat.inj_add, Nat2Z.id by lia. rewrite firstn_app, Nat.sub_diag, firstn_all, skipn_all2 by (rewrite app_length; cbn; lia).
  cbn [firstn]. rewrite !app_nil_r. reflexivity.
Qed.
Theorem C07_last : forall (A : Type) (L : arr Z) (a : arr A) n rest, wf L -> wf a -> dims a = rest ++ [n] -> dims L = rest ->
  Forall (fun c => - 2 ^ 63 <= c /\ c + n <= 2 ^ 63) (elems L) ->
  exists r, rotLast L (Arr a) = Ok (Arr r) /\ wf r /\ dims r = dims a /\
    forall i idx c, inb (dims a) (idx ++ [i]) -> elem L idx = Some c -> elem r (idx ++ [i]) = elem a (idx ++ [(i + c) mod n]).
Proof.
  intros A L a n rest HL Ha Hd HdL HW. assert (Hne : dims L <> []) by apply HL.
  assert (K : norm_axis (zlen (dims a)) (-1) = zlen rest) by (rewrite Hd, zlen_app; unfold norm_axis; change (zlen [n]) with 1; cbn [Z.ltb Z.compare]; lia).
  destruct (C07_rotate_lines A L a (-1) n HL Ha) as (r & E & Wr & Dr & H); [| | |exact HW|].
  - rewrite Hd, zlen_app. change (zlen [n]) with 1. destruct (dims L) as [|x l] eqn:El; [congruence|]. rewrite <- HdL, zlen_cons. pose proof (zlen_nonneg l). lia.
  - rewrite K, Hd. apply znth_end.
  - rewrite K, Hd, HdL. symmetry. apply del_end.
  - rewrite K in H. exists r. split; [exact E|]. split; [exact Wr|]. split; [exact Dr|]. intros i idx c Hi Hc.
    assert (Ll : zlen idx = zlen rest) by (pose proof (inb_zlen _ _ Hi) as L1; rewrite Hd, !zlen_app in L1; change (zlen [i]) with 1 in L1; change (zlen [n]) with 1 in L1; lia).
    rewrite <- Ll in H. rewrite (H (idx ++ [i]) i c Hi (znth_end _ _)) by (rewrite del_end; exact Hc). rewrite zupd_snoc. reflexivity.
Qed.
Print Assumptions C05_first. Print Assumptions C05_last. Print Assumptions C06_named. Print Assumptions C07_first. Print Assumptions C07_last.
Example C05_named_example :
  revFirst (Arr (mkArr [2; 3] [1; 2; 3; 4; 5; 6])) = Ok (Arr (mkArr [2; 3] [4; 5; 6; 1; 2; 3])) /\
  revLast (Arr (mkArr [2; 3] [1; 2; 3; 4; 5; 6])) = Ok (Arr (mkArr [2; 3] [3; 2; 1; 6; 5; 4])) /\
  rotFirst (vec [0; 1; 0]) (Arr (mkArr [2; 3] [1; 2; 3; 4; 5; 6])) = Ok (Arr (mkArr [2; 3] [1; 5; 3; 4; 2; 6])) /\
  rotLast (vec [1; -1]) (Arr (mkArr [2; 3] [1; 2; 3; 4; 5; 6])) = Ok (Arr (mkArr [2; 3] [2; 3; 1; 6; 4; 5])).
Proof. repeat split; vm_compute; reflexivity. Qed.

(* ,[k+0.5]A with the index origin o: a new axis of length 1 before the axis k+1-o, in front of all
   axes or behind them; the elements stay.  [fl]: the fraction, rounded down. *)
Theorem C16_ravel_inserts_axis : forall (A : Type) (z : A) origin (a : arr A) pre post, wf a -> size (dims a) <> 0 -> dims a = pre ++ post ->
  ravelFrac z origin (Arr a) (origin + zlen pre - 1) = Ok (Arr (mkArr (pre ++ 1 :: post) (elems a))).
Proof.
  intros A z origin a pre post Hw Hs Hd. unfold ravelFrac, splitCatAxis. cbn [shapeOf asArr dims]. pose proof (zlen_nonneg pre). pose proof (zlen_nonneg post).
  assert (L : zlen (dims a) = zlen pre + zlen post) by (rewrite Hd; apply zlen_app).
  match goal with |- context [if ?c then Err else _] => replace c with false by lia end. cbn [obind fst]. 
  replace (origin + zlen pre - 1 - origin + 1) with (zlen pre) by lia.
  replace ((zlen pre <? 0) || (zlen (dims a) <? zlen pre)) with false by lia.
  destruct (Reshape_insert1 a (zlen pre) Hw Hs ltac:(lia)) as [E _]. rewrite E. unfold omap, obind. do 3 f_equal.
  unfold insert. rewrite Hd. unfold zlen. rewrite Nat2Z.id, firstn_app, Nat.sub_diag, firstn_all, skipn_app, skipn_all, Nat.sub_diag. cbn [firstn skipn app]. rewrite app_nil_r. reflexivity.
Qed.
(* of a scalar: a vector of one element *)
Theorem C16_ravel_scalar_axis : forall (A : Type) (z : A) origin x, ravelFrac z origin (Scal x) (origin - 1) = Ok (Arr (vec [x])).
Proof. intros. unfold ravelFrac, splitCatAxis. match goal with |- context [if ?c then Err else _] => replace c with false by (cbn; lia) end. reflexivity. Qed.
(* an axis outside is an error *)
Theorem C16_ravel_axis_error : forall (A : Type) (z : A) origin (a : arr A) fl, fl < origin - 1 \/ origin + zlen (dims a) < fl ->
  ravelFrac z origin (Arr a) fl = Err.
Proof.
  intros A z origin a fl H. unfold ravelFrac, splitCatAxis. cbn [shapeOf]. pose proof (zlen_nonneg (dims a)).
  match goal with |- context [if ?c then Err else _] => replace c with true end; [reflexivity|]. unfold shapeOf. symmetry. apply orb_true_iff. rewrite !Z.ltb_lt. cbn. lia.
Qed.
Print Assumptions C16_ravel_inserts_axis. Print Assumptions C16_ravel_scalar_axis. Print Assumptions C16_ravel_axis_error.
Example C16_axis_example : ravelFrac 0 1 (Arr (mkArr [2; 3] [1; 2; 3; 4; 5; 6])) 1 = Ok (Arr (mkArr [2; 1; 3] [1; 2; 3; 4; 5; 6])).
Proof. exact (C16_ravel_inserts_axis Z 0 1 (mkArr [2; 3] [1; 2; 3; 4; 5; 6]) [2] [3] ltac:(split; [discriminate|split; [repeat constructor; lia|reflexivity]]) ltac:(discriminate) eq_refl). Qed.
(* Finding: one further step beyond the end is not refused: the slice index panics
   (comma.go:117-126; splitCatAxis of comma.go accepts it for the two argument form). *)
Theorem C16_ravel_axis_panic : forall (A : Type) (z : A) origin (a : arr A), ravelFrac z origin (Arr a) (origin + zlen (dims a)) = Panic.
Proof.
  intros A z origin a. unfold ravelFrac, splitCatAxis. cbn [shapeOf asArr]. pose proof (zlen_nonneg (dims a)).
  match goal with |- context [if ?c then Err else _] => replace c with false by (cbn; lia) end. cbn [obind fst].
  replace ((origin + zlen (dims a) - origin + 1 <? 0) || (zlen (dims a) <? origin + zlen (dims a) - origin + 1)) with true by lia. reflexivity.
Qed.
Print Assumptions C16_ravel_axis_panic.

From Verif Require Import M_Reduce S_Reduce P_Reduce.
(* an empty mask expands an array whose axis has no elements, to itself; any other axis is refused *)
Theorem C37_empty_mask : forall (A : Type) (zero : A) (a : arr A) axis n, wf a -> znth (dims a) (norm_axis (zlen (dims a)) axis) = Some n ->
  Expand zero Emp (Arr a) axis = (if n =? 0 then Ok (Arr a) else Err).
Proof.
  intros A zero a axis n Hw Hn. unfold Expand. cbn [asArr]. pose proof (znth_some_range _ _ _ Hn) as R. unfold norm_axis in *.
  match goal with |- context [(0 <=? ?k) && _] => set (x := k) in * end. replace ((0 <=? x) && (x <=? zlen (dims a))) with true by lia.
  rewrite (proj2 (zat_ok _ _ _) Hn). cbn [obind]. destruct (n =? 0) eqn:E; [|reflexivity]. apply Z.eqb_eq in E. subst n.
  assert (S0 : size (dims a) = 0).
  { clearbody x. clear - Hn. revert x Hn. induction (dims a) as [|d ds IH]; intros x Hn; [rewrite (proj2 (znth_none _ _)) in Hn by (change (zlen []) with 0; lia); discriminate|].
    change (size (d :: ds)) with (d * size ds). pose proof (znth_some_range _ _ _ Hn) as R. destruct (Z.eq_dec x 0) as [->|N].
    - change (znth (d :: ds) 0) with (Some d) in Hn. injection Hn as ->. reflexivity.
    - rewrite znth_cons_pos in Hn by lia. rewrite (IH _ Hn). lia. }
  assert (L : zlen (elems a) = size (dims a)) by apply Hw. rewrite S0 in L. destruct a as [ds es]. cbn [elems dims] in *. destruct es; [reflexivity|rewrite zlen_cons in L; pose proof (zlen_nonneg es); lia].
Qed.
Theorem C37_empty_mask_scalar : forall (A : Type) (zero x : A) axis, Expand zero Emp (Scal x) axis = Ok Emp.
Proof. reflexivity. Qed.
Print Assumptions C37_empty_mask. Print Assumptions C37_empty_mask_scalar.
Example C37_empty_example : Expand 7 Emp (Arr (mkArr [2; 0] [])) (-1) = Ok (Arr (mkArr [2; 0] [])) /\ Expand 7 Emp (Arr (vec [1; 2])) 0 = Err.
Proof. split; [exact (C37_empty_mask Z 7 (mkArr [2; 0] []) (-1) 0 ltac:(split; [discriminate|split; [repeat constructor; lia|reflexivity]]) eq_refl)|exact (C37_empty_mask Z 7 (vec [1; 2]) 0 2 ltac:(split; [discriminate|split; [repeat constructor; cbn; lia|reflexivity]]) eq_refl)]. Qed.

From Verif Require Import M_Number S_Number P_Number P_Tower M_Scalar P_Scalar M_Dict S_Dict P_Dict S_Operators M_Table S_Table P_Table P_Table2 P_Table3 Prop_Table.
Section C108.
  Context {P : Type} (M : methods P) (t : tower P) (hu : ntype -> bool) {K : Type} (keq : K -> K -> bool) (Hk : key_equality keq) (veq : sval P -> sval P -> bool) (skey : string -> K) (origin : Z).
  (* T[rows;columns;functions;group]: the query of the table T[rows;columns] *)
  Theorem C108_indexed (T : @table P K) rs cs l ks a g : good M keq T -> index_means skey origin T rs cs l ks -> many rs cs -> NoDup ks -> (forall k, In k ks -> In k (keysOf (tdict T))) ->
    exists T', tableIndex M keq skey origin T rs cs = Ok (TTable T') /\ keysOf (tdict T') = ks /\ Rows T' = zlen l /\
      tableIndexQuery M t hu keq skey veq origin T rs cs a g = tableQuery M t hu keq veq T' a g.
  Proof.
    intros G Hm Hmany Hn Hin. destruct (selection_ok M keq Hk skey origin T rs cs l ks G Hm Hin) as (Hl & ci & Es & F).
    destruct (subtable_ok M keq Hk T l ci ks G Hl F Hn) as (d & Ed & Gd & Ek & Hc).
    unfold tableIndex, tableIndexQuery. rewrite Es. cbn [obind fst snd]. rewrite (proj1 (many_conv rs cs) Hmany). unfold index_conv. rewrite Ed. cbn [obind].
    exists (mkTable d (zlen l)). repeat split; assumption.
  Qed.
End C108.
Print Assumptions C108_indexed.

From Verif Require Import Eff M_Big S_Big P_Big P_Big2 P_Big3 P_Big4 P_Big5 P_Big6 Prop_Big Prop_Big2.
Section C136.
  Context (rnd : Z -> Q -> fl) (sqt : Z -> Q -> fl) (f64 : fl -> fl).
  Context (fexp flog : flt -> flt) (fpow : flt -> flt -> flt).
  Notation arith1 := (arith1 rnd sqt f64 fexp flog). Notation arith2 := (arith2 rnd f64 flog fpow).

  (* the only exact exponential is that of zero: one *)
  Theorem C136_exponential : forall h v x, stands h v x ->
    ((x == 0)%Q -> gives (arith1 Exact Exp v) h 1%Q) /\
    (~ (x == 0)%Q -> exists h', arith1 Exact Exp v h = (Err, h')).
  Proof.
    assert (LR : forall k h p q, znth h p = Some (CRat q) -> ~ (q == 0)%Q -> exists h', arith1_loop rnd sqt f64 fexp flog (S k) Exact Exp (VR p) h = (Err, h')).
    { intros k h p q Hp Hq. exists h. cbn [arith1_loop call1]. unfold Rat_Pow. rewrite ebind_assoc, (ebind_ok _ _ _ _ _ (getr_at _ _ _ Hp)).
      rewrite (proj2 (iszero_false q) Hq). reflexivity. }
    assert (LI : forall k h p n, znth h p = Some (CInt n) -> n <> 0 -> exists h', arith1_loop rnd sqt f64 fexp flog (S (S k)) Exact Exp (VI p) h = (Err, h')).
    { intros k h p n Hp Hn. 
      assert (N : ~ (Qred (inject_Z n) == 0)%Q) by (rewrite Qred_correct; intros E; apply Hn; unfold Qeq in E; cbn in E; lia).
      destruct (LR k (h ++ [CRat (Qred (inject_Z n))]) (zlen h) _ (znth_end _ _) N) as (h' & E). exists h'.
      rewrite <- E. set (L := arith1_loop rnd sqt f64 fexp flog (S k)).
      change (arith1_loop rnd sqt f64 fexp flog (S (S k)) Exact Exp (VI p)) with (let! r := Int_Pow p in match r with Some w => eret w | None => let! u := uptype rnd f64 Exact (VI p) in match u with Some v' => L Exact Exp v' | None => efail end end).
      unfold Int_Pow. rewrite ebind_assoc, (ebind_ok _ _ _ _ _ (geti_at _ _ _ Hp)). replace (n =? 0) with false by lia.
      unfold no. rewrite (ebind_ok _ _ _ None h) by reflexivity. cbn [uptype]. unfold newR, some. rewrite ebind_assoc.
      rewrite (ebind_ok _ _ _ (zlen h) (h ++ [CRat 0])) by reflexivity. rewrite ebind_assoc, (ebind_ok _ _ _ n (h ++ [CRat 0])) by (apply geti_at, znth_old, Hp).
      rewrite ebind_assoc, (ebind_ok _ _ _ _ _ (set_last h _ _)). reflexivity. }
    assert (LS : forall k h n, n <> 0 -> exists h', arith1_loop rnd sqt f64 fexp flog (S (S (S k))) Exact Exp (VS n) h = (Err, h')).
    { intros k h n Hn. destruct (LI k (h ++ [CInt n]) (zlen h) n (znth_end _ _) Hn) as (h' & E). exists h'. rewrite <- E. set (L := arith1_loop rnd sqt f64 fexp flog (S (S k))).
      change (arith1_loop rnd sqt f64 fexp flog (S (S (S k))) Exact Exp (VS n)) with (let! r := (if n =? 0 then some (VS 1) else no) in match r with Some w => eret w | None => let! u := uptype rnd f64 Exact (VS n) in match u with Some v' => L Exact Exp v' | None => efail end end).
      replace (n =? 0) with false by lia. reflexivity. }
    intros h v x Hv. destruct (stands_cases _ _ _ Hv) as [(b & <- & <-)|[(n & R & <- & <-)|[(p & n & Hp & <- & <-)|(p & q & Hp & N & <- & <-)]]]; split; intros H0.
    - destruct b; [discriminate H0|]. eexists _, h, _. split; [reflexivity|]. split; [apply (stands_small h 1); vm_compute; intuition discriminate|]. split; [reflexivity|intros ? ? X; exact X].
    - destruct b; [|exfalso; apply H0; reflexivity]. destruct (LS 0%nat h 1 ltac:(lia)) as (h' & E). exists h'. exact E.
    - assert (n = 0) by (unfold Qeq in H0; cbn in H0; lia). subst n. eexists _, h, _. split; [reflexivity|]. split; [apply (stands_small h 1); vm_compute; intuition discriminate|]. split; [reflexivity|intros ? ? X; exact X].
    - assert (Hn : n <> 0) by (intros ->; apply H0; reflexivity). destruct (LS 1%nat h n Hn) as (h' & E). exists h'. rewrite <- E.
      unfold M_Big.arith1. cbn [call1 class_of]. replace (n =? 0) with false by lia. reflexivity.
    - assert (n = 0) by (unfold Qeq in H0; cbn in H0; lia). subst n. exists (VI (zlen h)), (h ++ [CInt 1]), (inject_Z 1).
      split; [|split; [constructor; apply znth_end|split; [reflexivity|apply unchanged_app]]].
      unfold M_Big.arith1. cbn [call1]. unfold Int_Pow. rewrite ebind_assoc, (ebind_ok _ _ _ _ _ (geti_at _ _ _ Hp)). reflexivity.
    - assert (Hn : n <> 0) by (intros ->; apply H0; reflexivity). destruct (LI 2%nat h p n Hp Hn) as (h' & E). exists h'. rewrite <- E.
      unfold M_Big.arith1. cbn [call1 class_of]. rewrite (ebind_ok _ _ _ None h); [reflexivity|]. unfold Int_Pow. rewrite (ebind_ok _ _ _ _ _ (geti_at _ _ _ Hp)). replace (n =? 0) with false by lia. reflexivity.
    - exists (VI (zlen h)), (h ++ [CInt 1]), (inject_Z 1).
      split; [|split; [constructor; apply znth_end|split; [reflexivity|apply unchanged_app]]].
      unfold M_Big.arith1. cbn [call1]. unfold Rat_Pow. rewrite ebind_assoc, (ebind_ok _ _ _ _ _ (getr_at _ _ _ Hp)).
      assert (Z0 : iszero q = true) by (destruct (iszero q) eqn:Z0; [reflexivity|]; apply iszero_false in Z0; contradiction). rewrite Z0. reflexivity.
    - destruct (LR 3%nat h p q Hp H0) as (h' & E). exists h'. rewrite <- E.
      unfold M_Big.arith1. cbn [call1 class_of]. rewrite (ebind_ok _ _ _ None h); [reflexivity|]. unfold Rat_Pow. rewrite (ebind_ok _ _ _ _ _ (getr_at _ _ _ Hp)). rewrite (proj2 (iszero_false q) H0). reflexivity.
  Qed.
  (* a quotient of floats by zero: an infinity, and not a number for zero by zero *)
  Theorem C137_by_zero : forall k h p q f g x, znth h p = Some (CFlt (mkF f (Fin x))) -> znth h q = Some (CFlt (mkF g (Fin 0))) ->
    arith2 (Precise k) Div (VF p) (VF q) h = (Ok (VX (if iszero x then "NaN" else "inf")), h).
  Proof.
    intros k h p q f g x Hp Hq. unfold M_Big.arith2. cbn [same_type call2]. unfold Float_Div2, some. rewrite !ebind_assoc, (ebind_ok _ _ _ _ _ (getf_at _ _ _ Hp)), !ebind_assoc, (ebind_ok _ _ _ _ _ (getf_at _ _ _ Hq)).
    cbn [fv is_inf fsign]. change (qsign 0 =? 0) with true. rewrite andb_true_r. destruct (iszero x) eqn:Z0.
    - replace (qsign x =? 0) with true; [reflexivity|]. symmetry. destruct (qsign x =? 0) eqn:E; [reflexivity|]. exfalso. apply (fsign0f x) in E. apply iszero_false in E. congruence.
    - replace (qsign x =? 0) with false; [reflexivity|]. symmetry. apply (fsign0f x). apply iszero_false. exact Z0.
  Qed.
  (* the logarithm of y to the base x is the quotient of the logarithms; base 1: an infinity *)
  Theorem C137_logarithm_base : forall k h p q f g x y u a w b, znth h p = Some (CFlt (mkF f (Fin x))) -> znth h q = Some (CFlt (mkF g (Fin y))) -> (0 <= x)%Q -> (0 <= y)%Q ->
    flog (mkF f (Fin x)) = mkF u (Fin a) -> flog (mkF g (Fin y)) = mkF w (Fin b) -> 0 < w ->
    (~ (a == 0)%Q -> makes (arith2 (Precise k) LogB (VF p) (VF q)) h (mkF w (rnd w (b / a)))) /\
    ((a == 0)%Q -> (0 < b)%Q -> makes (arith2 (Precise k) LogB (VF p) (VF q)) h (mkF w (Inf false))) /\
    ((a == 0)%Q -> (b < 0)%Q -> makes (arith2 (Precise k) LogB (VF p) (VF q)) h (mkF w (Inf true))).
  Proof.
    intros k h p q f g x y u a w b Hp Hq Hx Hy Ha Hb Hw.
    assert (G : forall v, fl_quo (Fin b) (Fin a) = Ok v -> makes (arith2 (Precise k) LogB (VF p) (VF q)) h (mkF w (fround rnd w v))).
    { intros v Hv. eapply (dispatch rnd sqt f64 fexp flog fpow); [reflexivity|constructor; exact Hp|constructor; exact Hq|]. intros h1 p1 q1 U L P1 P2.
      cbn [call2]. unfold Float_Log2. rewrite (ebind_ok _ _ _ _ _ (getf_at _ _ _ P1)). cbn [fv fsign].
      assert (S1 : qsign x <? 0 = false) by (destruct (qsign x <? 0) eqn:E; [apply qsign_neg in E; exfalso; apply (Qlt_not_le _ _ E Hx)|reflexivity]).
      assert (S2 : qsign y <? 0 = false) by (destruct (qsign y <? 0) eqn:E; [apply qsign_neg in E; exfalso; apply (Qlt_not_le _ _ E Hy)|reflexivity]).
      rewrite S1. rewrite (ebind_ok _ _ _ _ _ (getf_at _ _ _ P2)). cbn [fv fsign]. rewrite S2, Ha, Hb.
      exists (zlen h1 + 1), (h1 ++ [CFlt (mkF u (Fin a)); CFlt (mkF w (fround rnd w v))]). split; [|split; [lia|split]].
      - rewrite <- (app_nil_r h1) at 1. unfold some. fstep. listify. fstep. listify.
        erewrite ebind_ok by (apply run_fop with (a := mkF w (Fin b)) (b := mkF u (Fin a)) (v := v); [look|look|rewrite znth_new by (vm_compute; discriminate); reflexivity|exact Hv]).
        listify. cbn [prec]. replace (w =? 0) with false by lia. reflexivity.
      - rewrite znth_app_r by lia. replace (zlen h1 + 1 - zlen h1) with 1 by lia. reflexivity.
      - apply unchanged_app. }
    split; [|split].
    - intros N. apply (G (Fin (b / a))). apply quo_ok, N.
    - intros N B. apply (G (Inf false)). unfold fl_quo. assert (Z0 : iszero a = true) by (destruct (iszero a) eqn:Z0; [reflexivity|]; apply iszero_false in Z0; contradiction). rewrite Z0.
      rewrite (proj2 (iszero_false b)) by (intros E; rewrite E in B; exact (Qlt_irrefl _ B)). destruct (qsign b <? 0) eqn:E; [|reflexivity]. apply qsign_neg in E. exfalso. apply (Qlt_irrefl b). eapply Qlt_trans; eassumption.
    - intros N B. apply (G (Inf true)). unfold fl_quo. assert (Z0 : iszero a = true) by (destruct (iszero a) eqn:Z0; [reflexivity|]; apply iszero_false in Z0; contradiction). rewrite Z0.
      rewrite (proj2 (iszero_false b)) by (intros E; rewrite E in B; exact (Qlt_irrefl _ B)). apply qsign_neg in B. rewrite B. reflexivity.
  Qed.
End C136.
Print Assumptions C136_exponential. Print Assumptions C137_by_zero. Print Assumptions C137_logarithm_base.
Example C136_exponential_example : gives (arith1 (fun _ q => Fin q) (fun _ q => Fin q) (fun x => x) (fun x => x) (fun x => x) Exact Exp (VI 0)) [CInt 0] 1%Q.
Proof. apply (C136_exponential (fun _ q => Fin q) (fun _ q => Fin q) (fun x => x) (fun x => x) (fun x => x) [CInt 0] (VI 0) (inject_Z 0)); [constructor; reflexivity|reflexivity]. Qed.

From Verif Require Import M_Scan S_Scan P_Scan M_Strings M_Format S_Format P_Format P_Format2 P_Format3 M_Syntax M_Parse Prop_Names.
(* a text without values -- blanks, brackets, parentheses, commas, semicolons and line ends -- is no
   array, and no cell is read from it *)
Definition no_values (C : scanner) (s : text) : Prop := Forall (fun r => In r [r_newline; r_semicolon; r_rbrack; r_comma; r_lbrack; r_lparen; r_rparen] \/ IsSpace (s_unicode C) r = true) s.
Lemma no_values_loop {A} C (num : text -> option A) (str : text -> A) rank s : no_values C s -> forall n, (length s <= n)%nat ->
  scan_loop C num str n rank [] 0 [] s = Ok (Ended [] [] []).
Proof.
  induction 1 as [|r s Hr _ IH]; intros n Hn; [destruct n; reflexivity|]. destruct n as [|n]; [cbn in Hn; lia|]. cbn [scan_loop].
  destruct (closing r) eqn:Ec; [apply IH; cbn in Hn; lia|]. replace (skipped C r) with true; [apply IH; cbn in Hn; lia|]. symmetry. unfold skipped.
  destruct Hr as [Hr|Hr]; [|rewrite Hr; reflexivity]. apply orb_true_iff. right. unfold closing, in_runes in *. cbn [existsb In] in *.
  rewrite !orb_false_iff, !Z.eqb_neq in Ec. rewrite !orb_true_iff, !Z.eqb_eq. intuition congruence.
Qed.
Theorem C112_no_values : forall (A : Type) C (num : text -> option A) (str : text -> A) s, no_values C s -> ParseArray C num str s = Err.
Proof. intros A C num str s H. unfold ParseArray, ScanRankArray. rewrite no_values_loop by (exact H || lia). reflexivity. Qed.
Theorem C113_no_values : forall (A : Type) C (num : text -> option A) (str : text -> A) fuel rank s, no_values C s -> read_cells C num str fuel rank s = [].
Proof. intros A C num str fuel rank s H. destruct fuel; [reflexivity|]. cbn [read_cells]. unfold ScanRankArray. rewrite no_values_loop by (exact H || lia). reflexivity. Qed.
(* the upper-case letters of Latin-1, A-Z and À-Ö, Ø-Þ, begin the names of values *)
Theorem C96_latin : forall U r w, 0 <= r < 256 ->
  (names_value U (r :: w) <-> 65 <= r <= 90 \/ 192 <= r <= 214 \/ 216 <= r <= 222).
Proof.
  intros U r w Hr. unfold names_value. split.
  - intros (r' & w' & E & H). injection E as <- <-. destruct H as [H|H]; [|unfold marker, r_quad, r_alpha, r_omega in H; lia].
    unfold IsUpper, rune_range in H. replace (r <? 256) with true in H by lia. lia.
  - intros H. exists r, w. split; [reflexivity|]. left. unfold IsUpper, rune_range. replace (r <? 256) with true by lia. lia.
Qed.
(* nothing is no program *)
Theorem C162_empty : forall D (G : grammar D), parse G [] = Err.
Proof. reflexivity. Qed.
Print Assumptions C112_no_values. Print Assumptions C113_no_values. Print Assumptions C96_latin. Print Assumptions C162_empty.
