(* Prop_Search.v -- properties C22..C31: interval, index-of, membership,
   unique, without, where, interval index, grade, match, find
   (apl/primitives/iota.go, unique.go, boolean.go, grade.go, match.go, find.go).
   The element comparison is a parameter: eqv is "the two elements are equal"
   (any boolean test, an equivalence where that is needed), lt is "less". *)
From Coq Require Import Permutation.
From Verif Require Import Base M_Array S_Array S_Structural P_Array M_Structural
  P_Reverse P_Transpose P_Take P_Comma P_Structural Eff S_Reduce M_Reduce P_Reduce P_Nwise P_Replicate
  S_Operators M_Operators P_Operators Prop_Operators S_Search M_Search P_Search.

(* ------------------------------------------------------------------ C22 *)
Theorem C22_interval : forall origin n,
  (n < 0 -> interval origin n = Err) /\
  (n = 0 -> interval origin n = Ok Emp) /\
  (0 < n -> exists a, interval origin n = Ok (Arr a) /\ dims a = [n] /\ zlen (elems a) = n /\
     forall i, 0 <= i < n -> znth (elems a) i = Some (origin + i)).
Proof.
  intros origin n. unfold interval. repeat split; intros H.
  - replace (n <? 0) with true by lia. reflexivity.
  - subst. reflexivity.
  - replace (n <? 0) with false by lia. replace (n =? 0) with false by lia.
    eexists. split; [reflexivity|]. cbn [dims elems]. split; [reflexivity|]. split; [zla; lia|].
    intros i Hi. rewrite znth_map, znth_zseq by lia. reflexivity.
Qed.
Print Assumptions C22_interval.
Example C22_example : interval 1 3 = Ok (Arr (vec [1; 2; 3])) /\ interval 0 3 = Ok (Arr (vec [0; 1; 2])) /\ interval 1 (-1) = Err.
Proof. repeat split; reflexivity. Qed.

(* ------------------------------------------------------------------ C23 *)
Theorem C23_indexof :
  forall (A : Type) (eqv : A -> A -> bool) origin (l : list A) (R : arr A),
  wf R ->
  exists r, indexof eqv origin (Arr (vec l)) (Arr R) = Arr r /\ wf r /\ dims r = dims R /\
    forall i x, inb (dims R) i -> elem R i = Some x ->
      exists k, first_index (fun v => eqv x v = true) l k /\ elem r i = Some (origin + k).
Proof.
  intros A eqv origin l R (H1 & H2 & H3). unfold indexof. cbn [asArr elemsOf elems vec].
  eexists. split; [reflexivity|]. split; [|split; [reflexivity|]].
  - split; [exact H1|split; [exact H2|]]. cbn [dims elems]. zla. lia.
  - intros i x Hi Hx. unfold elem in *. cbn [dims elems]. rewrite znth_map, Hx. cbn [option_map].
    destruct (index_loop_spec eqv origin (zlen l + origin) x l 0) as (j & Hj & ->).
    exists j. split; [exact Hj|]. f_equal. destruct (Z.eqb_spec j (zlen l)); lia.
Qed.
Print Assumptions C23_indexof.
(* an L without elements finds nothing: every answer is the origin *)
Theorem C23_indexof_empty : forall (A : Type) (eqv : A -> A -> bool) origin (R : arr A),
  indexof eqv origin Emp (Arr R) = Arr (mkArr (dims R) (map (fun _ => origin) (elems R))).
Proof. intros. unfold indexof. cbn. do 2 f_equal. Qed.
Print Assumptions C23_indexof_empty.
(* A scalar R is converted to a one-element vector first (iota.go:20), so the
   result is a vector, not a scalar. *)
Theorem C23_scalar_shape_refuted : forall (A : Type) (eqv : A -> A -> bool) origin L (x : A),
  exists k, indexof eqv origin L (ToArray (Scal x)) = Arr (mkArr [1] [k]).
Proof. intros. eexists. reflexivity. Qed.
Print Assumptions C23_scalar_shape_refuted.
Example C23_example : indexof Z.eqb 1 (Arr (vec [7; 8; 7; 9])) (Arr (mkArr [2; 2] [7; 9; 8; 1])) = Arr (mkArr [2; 2] [1; 4; 2; 5]).
Proof. reflexivity. Qed.

(* ------------------------------------------------------------------ C24 *)
Definition elements {A} (V : val A) : list A := match V with Scal x => [x] | Emp => [] | Arr a => elems a end.
Theorem C24_membership :
  forall (A : Type) (eqv : A -> A -> bool) (R : val A),
  (forall L : arr A, wf L ->
     exists r, membership eqv (Arr L) R = Arr r /\ wf r /\ dims r = dims L /\
     forall i x, inb (dims L) i -> elem L i = Some x ->
       exists b, elem r i = Some b /\ (b = true <-> exists y, In y (elements R) /\ eqv x y = true)) /\
  (forall x, exists b, membership eqv (Scal x) R = Scal b /\
       (b = true <-> exists y, In y (elements R) /\ eqv y x = true)).
Proof.
  intros A eqv R.
  assert (HR : (match R with Scal y => [y] | _ => elemsOf R end) = elements R) by (destruct R; reflexivity).
  split.
  - intros L (H1 & H2 & H3). unfold membership. rewrite HR. cbv zeta. eexists. split; [reflexivity|].
    split; [|split; [reflexivity|]]; cbn [asArr dims elems].
    + split; [exact H1|split; [exact H2|]]. cbn [dims elems]. zla. lia.
    + intros i x Hi Hx. unfold elem in *. cbn [dims elems]. rewrite znth_map, Hx. cbn [option_map].
      eexists. split; [reflexivity|]. apply existsb_exists.
  - intros x. unfold membership. rewrite HR. eexists. split; [reflexivity|]. apply existsb_exists.
Qed.
Print Assumptions C24_membership.
Example C24_example : membership Z.eqb (Arr (mkArr [2; 2] [1; 2; 3; 4])) (Arr (vec [4; 1])) = Arr (mkArr [2; 2] [true; false; false; true]) /\
  membership Z.eqb (Scal 4) (Arr (vec [4; 1])) = Scal true /\ membership Z.eqb (Scal 4) Emp = Scal false.
Proof. repeat split; reflexivity. Qed.

(* ------------------------------------------------------------------ C25 *)
(* For an equivalence: the result is exactly the list of first occurrences, no
   two elements of it are equal, every element of R is represented, and the
   function is idempotent. *)
Theorem C25_unique :
  forall (A : Type) (eqv : A -> A -> bool) (l : list A), equivalence eqv ->
  unique eqv (Arr (vec l)) = Arr (vec (firsts eqv l)) /\
  unique eqv (unique eqv (Arr (vec l))) = unique eqv (Arr (vec l)) /\
  (forall i j x y, i < j -> znth (firsts eqv l) i = Some x -> znth (firsts eqv l) j = Some y -> eqv x y = false) /\
  (forall x, In x (firsts eqv l) -> In x l) /\
  (forall x, In x l -> exists y, In y (firsts eqv l) /\ eqv x y = true).
Proof.
  intros A eqv l He. pose proof He as (Hr & Hs & Ht). destruct (uniq_firsts eqv He l) as (E & _). rewrite <- E.
  unfold unique. cbn [elemsOf elems vec]. split; [reflexivity|]. split.
  { rewrite uniq_loop_idem. reflexivity. }
  split.
  { intros i j x y Hij Hx Hy. rewrite Hs. eapply (uniq_distinct eqv l []); [|exact Hij|exact Hx|exact Hy].
    intros ? ? ? ? ? H. rewrite znth_nil_ in H. discriminate. }
  split.
  - intros x Hx. destruct (uniq_loop_In eqv l [] x Hx) as [[]|H]. exact H.
  - intros x Hx. apply uniq_loop_covers; [exact Hr|]. left. exact Hx.
Qed.
Print Assumptions C25_unique.
(* Without assuming that the comparison is an equivalence (it is not
   transitive across number types) the result is still duplicate-free,
   complete and idempotent. *)
Theorem C25_unique_any_comparison :
  forall (A : Type) (eqv : A -> A -> bool) (l : list A),
  exists u, unique eqv (Arr (vec l)) = Arr (vec u) /\ unique eqv (Arr (vec u)) = Arr (vec u) /\
  (forall i j x y, i < j -> znth u i = Some x -> znth u j = Some y -> eqv y x = false) /\
  (forall x, In x u -> In x l) /\
  ((forall x, eqv x x = true) -> forall x, In x l -> exists y, In y u /\ eqv x y = true).
Proof.
  intros A eqv l. exists (uniq_loop eqv l []). unfold unique. cbn [elemsOf elems vec]. split; [reflexivity|]. split.
  { rewrite uniq_loop_idem. reflexivity. }
  split.
  { apply (uniq_distinct eqv l []). intros ? ? ? ? ? H. rewrite znth_nil_ in H. discriminate. }
  split.
  - intros x Hx. destruct (uniq_loop_In eqv l [] x Hx) as [[]|H]. exact H.
  - intros Hr x Hx. apply uniq_loop_covers; [exact Hr|]. left. exact Hx.
Qed.
Print Assumptions C25_unique_any_comparison.
Theorem C25_union :
  forall (A : Type) (eqv : A -> A -> bool) (l r : list A), equivalence eqv ->
  union eqv (Arr (vec l)) (Arr (vec r)) = Arr (vec (firsts eqv (l ++ r))).
Proof.
  intros A eqv l r He. destruct (uniq_firsts eqv He (l ++ r)) as (E & _).
  unfold union. cbn [elemsOf elems vec]. rewrite <- uniq_loop_app, E. reflexivity.
Qed.
Print Assumptions C25_union.
(* With the empty array ⍬ on one side the other side is returned as it is,
   duplicates included (unique.go:48-53). *)
Theorem C25_union_empty_refuted :
  union Z.eqb Emp (Arr (vec [1; 1])) = Arr (vec [1; 1]) /\
  union Z.eqb (Arr (vec [1; 1])) Emp = Arr (vec [1; 1]) /\ firsts Z.eqb [1; 1] = [1].
Proof. repeat split; reflexivity. Qed.
Print Assumptions C25_union_empty_refuted.
Theorem C25_union_empty_partial :
  forall (A : Type) (eqv : A -> A -> bool) (V : val A), union eqv Emp V = V /\ (V <> Emp -> union eqv V Emp = V).
Proof. intros A eqv V. split; [reflexivity|]. destruct V; intros H; [reflexivity|congruence|reflexivity]. Qed.
Print Assumptions C25_union_empty_partial.
Example C25_example : equivalence Z.eqb /\ unique Z.eqb (Arr (vec [3; 1; 3; 2; 1])) = Arr (vec [3; 1; 2]) /\
  union Z.eqb (Arr (vec [3; 1; 3])) (Arr (vec [2; 1; 4])) = Arr (vec [3; 1; 2; 4]).
Proof. split; [|split; reflexivity]. repeat split; intros; lia. Qed.

(* ------------------------------------------------------------------ C26 *)
Theorem C26_without_partial :
  forall (A : Type) (zero : A) (eqv : A -> A -> bool) (l r : list A),
  (l <> [] -> without zero eqv (Arr (vec l)) (Arr (vec r)) =
     Ok (Arr (vec (filter (fun x => negb (existsb (eqv x) r)) l)))) /\
  without zero eqv (Arr (vec l)) Emp = Ok (Arr (vec l)) /\
  without zero eqv Emp (Arr (vec r)) = Ok Emp.
Proof. intros A zero eqv l r. split; [apply without_vec|split; reflexivity]. Qed.
Print Assumptions C26_without_partial.
(* An L of shape 0 that is not the empty array constant (for instance the
   result of removing everything) panics. *)
Theorem C26_without_empty_refuted :
  forall (A : Type) (zero : A) (eqv : A -> A -> bool) (x : A) (r : list A), eqv x x = true ->
  (let* e := without zero eqv (Arr (vec [x])) (Arr (vec [x])) in without zero eqv e (Arr (vec r))) = Panic.
Proof.
  intros A zero eqv x r Hx. rewrite without_vec by discriminate. cbn [obind filter existsb]. rewrite Hx. cbn. reflexivity.
Qed.
Print Assumptions C26_without_empty_refuted.
Example C26_example : without 0 Z.eqb (Arr (vec [1; 2; 3; 2; 4])) (Arr (vec [2; 4])) = Ok (Arr (vec [1; 3])).
Proof. vm_compute. reflexivity. Qed.

(* ------------------------------------------------------------------ C27 *)
Theorem C27_where :
  forall origin (l : list bool), l <> [] ->
  exists p, where_ origin (vec l) = Ok (Arr (vec p)) /\ increasing p /\
    zlen p = countb (fun b => b) l /\
    forall k, In k p <-> znth l (k - origin) = Some true.
Proof.
  intros origin l Hl. unfold where_. cbn [elems dims vec]. assert (0 < zlen l) by (destruct l; [congruence|zla; pose proof (zlen_nonneg l); lia]).
  replace (zlen l =? 0) with false by lia. change (zlen [zlen l]) with 1. cbn [negb Z.eqb].
  exists (where_loop origin 0 l). split; [reflexivity|]. split; [apply where_loop_inc|]. split; [apply where_loop_len|].
  intros k. rewrite where_loop_In. split.
  - intros (q & Hq & ->). replace (0 + q + origin - origin) with q by lia. exact Hq.
  - intros Hk. exists (k - origin). split; [exact Hk|lia].
Qed.
Print Assumptions C27_where.
Theorem C27_where_other_ranks : forall origin (a : arr bool), elems a <> [] -> zlen (dims a) <> 1 -> where_ origin a = Err.
Proof.
  intros origin a Ha Hd. unfold where_. assert (0 < zlen (elems a)) by (destruct (elems a) as [|b l]; [congruence|zla; pose proof (zlen_nonneg l); lia]). replace (zlen (elems a) =? 0) with false by lia.
  replace (zlen (dims a) =? 1) with false by lia. reflexivity.
Qed.
Print Assumptions C27_where_other_ranks.
Example C27_example : where_ 1 (vec [true; false; true; true]) = Ok (Arr (vec [1; 3; 4])).
Proof. reflexivity. Qed.

(* ------------------------------------------------------------------ C28 *)
(* srt is any sort that satisfies the contract of sort.Sort; conv, which turns
   all elements into one comparable type, leaves L alone. *)
Theorem C28_intervalindex :
  forall (A : Type) (srt : sorter) (lt : A -> A -> bool) conv fless origin (l r : list A),
  go_sort srt -> l <> [] -> conv (map (fun x => [x]) l) = Some (map (fun x => [x]) l) ->
  swo_on (fun x => In x l \/ In x r) lt ->
  (forall i j x y, i < j -> znth l i = Some x -> znth l j = Some y -> lt x y = true) ->
  (forall x y, In x r -> In y l -> fless x y = Ok (lt x y)) ->
  intervalindex srt lt conv fless origin (Arr (vec l)) (Arr (vec r)) =
  Ok (Arr (vec (map (fun y => countb (fun x => negb (lt y x)) l - 1 + origin) r))).
Proof. exact @intervalindex_ok. Qed.
Print Assumptions C28_intervalindex.
Theorem C28_not_sorted_rejected :
  forall (A : Type) (srt : sorter) (lt : A -> A -> bool) conv fless origin (l : list A) R,
  go_sort srt -> l <> [] -> conv (map (fun x => [x]) l) = Some (map (fun x => [x]) l) ->
  swo_on (fun x => In x l) lt ->
  (exists i j x y, i < j /\ znth l i = Some x /\ znth l j = Some y /\ lt y x = true) ->
  intervalindex srt lt conv fless origin (Arr (vec l)) R = Err.
Proof. exact @intervalindex_unsorted. Qed.
Print Assumptions C28_not_sorted_rejected.
(* For a matrix only the first element of each row is located: the result has
   one element per row (iota.go:198-206). *)
Theorem C28_matrix_refuted :
  intervalindex isort Z.ltb Some (fun x y => Ok (x <? y)) 1 (Arr (vec [2; 4; 6])) (Arr (mkArr [2; 2] [1; 9; 5; 9])) =
  Ok (Arr (vec [0; 2])).
Proof. vm_compute. reflexivity. Qed.
Print Assumptions C28_matrix_refuted.
Example C28_example :
  intervalindex isort Z.ltb Some (fun x y => Ok (x <? y)) 1 (Arr (vec [2; 4; 6])) (Arr (vec [1; 2; 3; 4; 5; 6; 7])) =
    Ok (Arr (vec [0; 1; 1; 2; 2; 3; 3])) /\ go_sort isort /\ swo_on (fun _ => True) Z.ltb.
Proof.
  split; [vm_compute; reflexivity|split; [exact isort_ok|]].
  repeat split; intros; lia.
Qed.

(* ------------------------------------------------------------------ C29 *)
Theorem C29_grade :
  forall (A : Type) (srt : sorter) (lt : A -> A -> bool) (up : bool) origin (a : arr A) d ds,
  go_sort srt -> wf a -> dims a = d :: ds -> 0 < size (dims a) -> swo_on (fun x => In x (elems a)) lt ->
  exists idx, grade srt lt Some up origin (Arr a) = Ok (Arr (vec idx)) /\
    Permutation idx (map (fun i => i + origin) (zseq d)) /\
    forall i j p q, i < j -> znth idx i = Some p -> znth idx j = Some q ->
      let cp := major_cell a (p - origin) in let cq := major_cell a (q - origin) in
      if up then ~ lex_lt lt cq cp else ~ lex_lt lt cp cq.
Proof.
  intros A srt lt up origin a d ds Hs Hw Hd Hp Hlt.
  assert (Hd0 : 0 <= d) by (destruct Hw as (_ & H & _); rewrite Hd in H; inversion H; assumption).
  destruct (grade_sorted srt lt Some up origin a d ds (map (major_cell a) (zseq d)) (size ds) (fun x => In x (elems a)) Hs Hw Hd Hp)
    as (idx & H1 & H2 & H3); [reflexivity|zla; lia| |exact Hlt|].
  - apply Forall_forall. intros c Hc. apply in_map_iff in Hc. destruct Hc as (n & <- & Hn). apply In_zseq in Hn.
    split; [eapply zlen_major; eassumption|]. apply Forall_forall. intros x Hx. eapply major_In. exact Hx.
  - exists idx. split; [exact H1|split; [exact H2|]]. intros i j p q Hij Hi Hj.
    destruct (H3 i j p q Hij Hi Hj) as (cp & cq & Hcp & Hcq & H). cbv zeta.
    pose proof (znth_some_range _ _ _ Hcp) as R1. pose proof (znth_some_range _ _ _ Hcq) as R2.
    assert (E : zlen (map (major_cell a) (zseq d)) = d) by (zla; lia). rewrite E in R1, R2.
    rewrite znth_map, znth_zseq in Hcp, Hcq by lia. cbn [option_map] in Hcp, Hcq.
    injection Hcp as <-. injection Hcq as <-. exact H.
Qed.
Print Assumptions C29_grade.
(* Elements of different number types are first converted; then the same holds
   for the converted cells. *)
Theorem C29_grade_converted :
  forall (A : Type) (srt : sorter) (lt : A -> A -> bool) conv (up : bool) origin (a : arr A) d ds cs n (P : A -> Prop),
  go_sort srt -> wf a -> dims a = d :: ds -> 0 < size (dims a) ->
  conv (map (major_cell a) (zseq d)) = Some cs -> zlen cs = d ->
  Forall (fun c => zlen c = n /\ Forall P c) cs -> swo_on P lt ->
  exists idx, grade srt lt conv up origin (Arr a) = Ok (Arr (vec idx)) /\
    Permutation idx (map (fun i => i + origin) (zseq d)) /\
    forall i j p q, i < j -> znth idx i = Some p -> znth idx j = Some q ->
      exists cp cq, znth cs (p - origin) = Some cp /\ znth cs (q - origin) = Some cq /\
        if up then ~ lex_lt lt cq cp else ~ lex_lt lt cp cq.
Proof. exact @grade_sorted. Qed.
Print Assumptions C29_grade_converted.
(* A vector: indexing with the grade sorts it. *)
Theorem C29_grade_vector :
  forall (A : Type) (srt : sorter) (lt : A -> A -> bool) up origin (l : list A),
  go_sort srt -> l <> [] -> swo_on (fun x => In x l) lt ->
  exists idx, grade srt lt Some up origin (Arr (vec l)) = Ok (Arr (vec idx)) /\
    Permutation idx (map (fun i => i + origin) (zseq (zlen l))) /\
    forall i j p q x y, i < j -> znth idx i = Some p -> znth idx j = Some q ->
      znth l (p - origin) = Some x -> znth l (q - origin) = Some y ->
      if up then lt y x = false else lt x y = false.
Proof.
  intros A srt lt up origin l Hs Hl Hlt. apply (grade_vec srt lt Some up origin l (fun x => In x l)); auto.
  apply Forall_forall. auto.
Qed.
Print Assumptions C29_grade_vector.
(* Dyadic grade sorts by the position in the collating vector L. *)
Theorem C29_grade_dyadic :
  forall (A : Type) (srt : sorter) (eqv : A -> A -> bool) up origin (l r : list A),
  go_sort srt -> r <> [] ->
  exists idx, grade2 srt eqv up origin (Arr (vec l)) (Arr (vec r)) = Ok (Arr (vec idx)) /\
    Permutation idx (map (fun i => i + origin) (zseq (zlen r))) /\
    forall i j p q x y m n, i < j -> znth idx i = Some p -> znth idx j = Some q ->
      znth r (p - origin) = Some x -> znth r (q - origin) = Some y ->
      first_index (fun v => eqv x v = true) l m -> first_index (fun v => eqv y v = true) l n ->
      if up then m <= n else n <= m.
Proof.
  intros A srt eqv up origin l r Hs Hr. unfold grade2, indexof. cbn [asArr elemsOf elems dims vec].
  set (f := fun x => index_loop eqv origin (zlen l + origin) x l 0).
  assert (E : mkArr [zlen r] (map f r) = vec (map f r)) by (unfold vec; rewrite zlen_map; reflexivity). rewrite E.
  destruct (C29_grade_vector Z srt Z.ltb up origin (map f r) Hs) as (idx & H1 & H2 & H3).
  - destruct r; [congruence|discriminate].
  - repeat split; intros; lia.
  - rewrite zlen_map in H2. exists idx. split; [exact H1|split; [exact H2|]].
    assert (Huniq : forall x m, first_index (fun v => eqv x v = true) l m -> f x = m + origin).
    { intros x m Hm. unfold f. destruct (index_loop_spec eqv origin (zlen l + origin) x l 0) as (j & Hj & ->).
      assert (j = m).
      { destruct Hj as [(J1 & (u & J2 & J3) & J4)|(J1 & J2)], Hm as [(M1 & (w & M2 & M3) & M4)|(M1 & M2)].
        - destruct (Z.lt_trichotomy j m) as [H|[H|H]]; [|exact H|].
          + exfalso. apply (M4 j u); [lia|exact J2|exact J3].
          + exfalso. apply (J4 m w); [lia|exact M2|exact M3].
        - exfalso. apply (M2 u); [eapply znth_In; exact J2|exact J3].
        - exfalso. apply (J2 w); [eapply znth_In; exact M2|exact M3].
        - congruence. }
      subst. destruct (Z.eqb_spec m (zlen l)); lia. }
    intros i j p q x y m n Hij Hi Hj Hx Hy Hm Hn.
    specialize (H3 i j p q (f x) (f y) Hij Hi Hj). rewrite !znth_map, Hx, Hy in H3. specialize (H3 eq_refl eq_refl).
    rewrite (Huniq x m Hm), (Huniq y n Hn) in H3. destruct up; lia.
Qed.
Print Assumptions C29_grade_dyadic.
(* Grading an array without elements panics instead of giving an empty
   permutation (grade.go:86 reads b[0][0]). *)
Theorem C29_empty_refuted :
  forall (A : Type) (srt : sorter) (lt : A -> A -> bool) conv up origin,
  grade srt lt conv up origin (Arr (vec (@nil A))) = Panic.
Proof. reflexivity. Qed.
Print Assumptions C29_empty_refuted.
Example C29_example :
  grade isort Z.ltb Some true 1 (Arr (mkArr [3; 2] [2; 1; 1; 9; 2; 0])) = Ok (Arr (vec [2; 3; 1])) /\
  grade isort Z.ltb Some false 0 (Arr (vec [5; 7; 6])) = Ok (Arr (vec [1; 2; 0])) /\
  go_sort isort /\ swo_on (fun _ => True) Z.ltb.
Proof. split; [vm_compute; reflexivity|split; [vm_compute; reflexivity|split; [exact isort_ok|]]]. repeat split; intros; lia. Qed.

(* ------------------------------------------------------------------ C30 *)
Theorem C30_match_arrays :
  forall (A : Type) (eqv : A -> A -> bool) (feq : A -> A -> outcome bool) (eqb : A -> A -> bool) (L R : arr A),
  wf L -> wf R -> (dims L = dims R -> forall x y, In x (elems R) -> In y (elems L) -> feq x y = Ok (eqb x y)) ->
  exists b, match_ eqv feq (Arr L) (Arr R) = Ok b /\ notmatch eqv feq (Arr L) (Arr R) = Ok (negb b) /\
    (b = true <-> dims L = dims R /\ forall i x y, inb (dims R) i -> elem R i = Some x -> elem L i = Some y -> eqb x y = true).
Proof.
  intros A eqv feq eqb L R HL HR Hf. destruct (match_arr eqv feq eqb L R HL HR Hf) as (b & Hb & Hiff).
  exists b. split; [exact Hb|]. split; [unfold notmatch; rewrite Hb; reflexivity|]. rewrite Hiff.
  destruct HL as (L1 & L2 & L3), HR as (R1 & R2 & R3).
  split; intros (Hd & H); (split; [exact Hd|]).
  - intros i x y Hi Hx Hy. unfold elem in *. rewrite Hd in Hy. revert Hx Hy. generalize (pos (dims R) i). clear - H.
    induction H as [|u v l m Huv H IH]; intros k Hx Hy; [rewrite znth_nil_ in Hx; discriminate|].
    pose proof (znth_some_range _ _ _ Hx). destruct (Z.eq_dec k 0) as [->|Hk].
    + cbn in Hx, Hy. injection Hx as <-. injection Hy as <-. exact Huv.
    + rewrite znth_cons_pos in Hx, Hy by lia. eapply IH; eassumption.
  - assert (Hz : zlen (elems R) = zlen (elems L)) by (rewrite L3, R3, Hd; reflexivity).
    assert (Hk : forall k x y, znth (elems R) k = Some x -> znth (elems L) k = Some y -> eqb x y = true).
    { intros k x y Hx Hy. pose proof (znth_some_range _ _ _ Hx) as Hr. rewrite R3 in Hr.
      destruct (znth_in_range (all_idx (dims R)) k) as (i & Hi); [rewrite zlen_all_idx by exact R2; exact Hr|].
      assert (Hin : inb (dims R) i) by (apply In_all_idx; eapply znth_In; exact Hi).
      assert (k = pos (dims R) i) as ->.
      { eapply NoDup_znth; [apply NoDup_all_idx; exact R2|exact Hi|apply znth_all_idx; exact Hin]. }
      apply (H i x y Hin); [exact Hx|unfold elem; rewrite Hd; exact Hy]. }
    revert Hz Hk. clear. generalize (elems R) as r, (elems L) as l. induction r as [|u r IH]; intros l Hz Hk.
    + destruct l; [constructor|]. zlh Hz. pose proof (zlen_nonneg l). lia.
    + destruct l as [|v l]; [zlh Hz; pose proof (zlen_nonneg r); lia|]. constructor.
      * apply (Hk 0); reflexivity.
      * apply IH; [zlh Hz; lia|]. intros k x y Hx Hy. pose proof (znth_some_range _ _ _ Hx) as Hr.
        apply (Hk (k + 1)); rewrite znth_cons_pos by lia; replace (k + 1 - 1) with k by lia; assumption.
Qed.
Print Assumptions C30_match_arrays.
(* scalars, the empty array and mixed cases *)
Theorem C30_match_scalars :
  forall (A : Type) (eqv : A -> A -> bool) (feq : A -> A -> outcome bool) (x y : A) (a : arr A), wf a ->
  match_ eqv feq (Scal x) (Scal y) = Ok (eqv x y) /\
  match_ eqv feq (Scal x) (Arr a) = Ok false /\ match_ eqv feq (Arr a) (Scal x) = Ok false /\
  match_ eqv feq (Scal x) Emp = Ok false /\ match_ eqv feq Emp (Scal x) = Ok false /\
  match_ eqv feq Emp Emp = Ok true /\ notmatch eqv feq (Scal x) (Scal y) = Ok (negb (eqv x y)).
Proof. intros. repeat split; reflexivity. Qed.
Print Assumptions C30_match_scalars.
(* If the elements are compared by an equivalence (same-typed values), match is
   an equivalence on values. *)
Theorem C30_match_equivalence :
  forall (A : Type) (eqv : A -> A -> bool), equivalence eqv ->
  let feq := fun x y => Ok (eqv x y) in
  let wfv := fun V : val A => match V with Arr a => wf a | _ => True end in
  (forall V, wfv V -> match_ eqv feq V V = Ok true) /\
  (forall V W, wfv V -> wfv W -> match_ eqv feq V W = match_ eqv feq W V) /\
  (forall U V W, wfv U -> wfv V -> wfv W ->
     match_ eqv feq U V = Ok true -> match_ eqv feq V W = Ok true -> match_ eqv feq U W = Ok true).
Proof.
  intros A eqv (Hr & Hs & Ht) feq wfv.
  assert (HA : forall L R, wf L -> wf R -> exists b, match_ eqv feq (Arr L) (Arr R) = Ok b /\
            (b = true <-> dims L = dims R /\ Forall2 (fun x y => eqv x y = true) (elems R) (elems L))).
  { intros L R HL HR. apply match_arr; [exact HL|exact HR|]. reflexivity. }
  assert (HE1 : forall a, match_ eqv feq Emp (Arr a) = match_ eqv feq (Arr a) Emp).
  { intros a. unfold match_. cbn [shapeOf]. rewrite (Z.eqb_sym (zlen (dims a))).
    change (zlen (@nil Z)) with 0. destruct (Z.eqb_spec 0 (zlen (dims a))) as [E|E]; [rewrite <- E|]; reflexivity. }
  split; [|split].
  - intros [x| |a] Hw; [cbn; rewrite Hr; reflexivity|reflexivity|].
    destruct (HA a a Hw Hw) as (b & -> & Hb). f_equal. apply Hb. split; [reflexivity|].
    clear - Hr. induction (elems a); constructor; auto.
  - intros [x| |a] [y| |b] HV HW; try reflexivity; [cbn; rewrite Hs; reflexivity| | |]; [apply HE1|symmetry; apply HE1|].
    destruct (HA a b HV HW) as (c & -> & Hc), (HA b a HW HV) as (d & -> & Hd). f_equal.
    assert (c = true <-> d = true).
    { rewrite Hc, Hd. split; intros (E & H); (split; [auto|]); clear - H Hs; induction H; constructor; auto; rewrite Hs; assumption. }
    destruct c, d; try reflexivity.
    + symmetry. apply H. reflexivity.
    + apply H. reflexivity.
  - assert (HEa : forall a, wf a -> match_ eqv feq Emp (Arr a) = Ok true -> False).
    { intros a (Hne & _) H. unfold match_ in H. cbn [shapeOf] in H. destruct (dims a); [congruence|].
      rewrite zlen_cons in H. pose proof (zlen_nonneg l).
      change (zlen (@nil Z)) with 0 in H. replace (1 + zlen l =? 0) with false in H by lia. discriminate. }
    assert (HEb : forall a, wf a -> match_ eqv feq (Arr a) Emp = Ok true -> False)
      by (intros a Ha H; rewrite <- HE1 in H; exact (HEa a Ha H)).
    intros [x| |a] [y| |b] [z| |c] HU HV HW H1 H2; try discriminate; try exact H2; try exact H1;
      try (exfalso; first [eapply HEa; [exact HW|exact H2]|eapply HEa; [exact HV|exact H1]
                          |eapply HEb; [exact HU|exact H1]|eapply HEb; [exact HV|exact H2]]).
    + cbn in *. injection H1 as H1. injection H2 as H2. rewrite (Ht x y z H1 H2). reflexivity.
    + destruct (HA a b HU HV) as (c1 & E1 & Hc1), (HA b c HV HW) as (c2 & E2 & Hc2), (HA a c HU HW) as (c3 & -> & Hc3).
      rewrite E1 in H1. rewrite E2 in H2. injection H1 as ->. injection H2 as ->. f_equal. apply Hc3.
      destruct (proj1 Hc1 eq_refl) as (D1 & F1), (proj1 Hc2 eq_refl) as (D2 & F2). split; [congruence|].
      clear - F1 F2 Ht. revert F1. generalize (elems a). induction F2 as [|u v us vs Huv F2 IH]; intros w F1; inversion F1; subst; constructor; eauto.
Qed.
Print Assumptions C30_match_equivalence.
Example C30_example :
  match_ Z.eqb (fun x y => Ok (x =? y)) (Arr (mkArr [2; 2] [1; 2; 3; 4])) (Arr (mkArr [2; 2] [1; 2; 3; 4])) = Ok true /\
  match_ Z.eqb (fun x y => Ok (x =? y)) (Arr (mkArr [2; 2] [1; 2; 3; 4])) (Arr (vec [1; 2; 3; 4])) = Ok false /\
  match_ Z.eqb (fun x y => Ok (x =? y)) (Arr (vec [1; 2])) (Arr (vec [1; 3])) = Ok false /\ equivalence Z.eqb.
Proof. repeat split; try reflexivity; intros; lia. Qed.

(* ------------------------------------------------------------------ C31 *)
(* Vectors: exactly the occurrences are marked. *)
Theorem C31_find_vector :
  forall (A : Type) (feq : A -> A -> outcome bool) (eqb : A -> A -> bool) (p l : list A),
  p <> [] -> (forall x y, In y l -> feq x y = Ok (eqb x y)) ->
  exists r, find feq (Arr (vec p)) (Arr (vec l)) = Ok (Arr (vec r)) /\ zlen r = zlen l /\ forall i b, znth r i = Some b ->
      (b = true <-> forall o x, znth p o = Some x -> exists y, znth l (i + o) = Some y /\ eqb x y = true).
Proof.
  intros A feq eqb p l Hp Hf.
  assert (Hnp : forall i, 0 <= i -> i + size (dims (vec p)) <= size (dims (vec l)) ->
    forall o, inb (dims (vec p)) o -> i + pos (dims (vec l)) o < size (dims (vec l))).
  { intros i Hi Hs o Ho. cbn [dims vec] in *. inversion Ho as [|? j ? o' Hj Ho']; subst. inversion Ho'; subst. cbn [pos size] in *. lia. }
  pose proof (find_value feq eqb (vec p) (vec l) (wf_vec p) (wf_vec l) eq_refl Hf Hnp) as HV.
  cbn [dims vec] in HV. cbn [size] in HV. rewrite Z.mul_1_r in HV.
  assert (Hzl : zlen (map (found eqb (vec p) (vec l)) (zseq (zlen l))) = zlen l) by (pose proof (zlen_nonneg l); zla; lia).
  exists (map (found eqb (vec p) (vec l)) (zseq (zlen l))).
  split; [rewrite HV; unfold vec at 3; rewrite Hzl; reflexivity|]. split; [exact Hzl|].
  intros i b Hb. pose proof (znth_some_range _ _ _ Hb) as Hi. rewrite Hzl in Hi.
  rewrite znth_map, znth_zseq in Hb by lia. cbn [option_map] in Hb. injection Hb as <-.
  assert (Hin : inb (dims (vec l)) [i]) by (constructor; [lia|constructor]).
  assert (Hpos : pos (dims (vec l)) [i] = i) by (cbn; lia).
  assert (Hel : forall (q : list A) o, elem (vec q) [o] = znth q o) by (intros; unfold elem; cbn; f_equal; lia).
  split.
  - intros Hfd o x Hx. rewrite <- Hpos in Hfd.
    pose proof (znth_some_range _ _ _ Hx) as Ho.
    destruct (size (dims (vec l)) - pos (dims (vec l)) [i] <? size (dims (vec p))) eqn:E.
    { unfold found in Hfd. rewrite E in Hfd. discriminate. }
    destruct (proj1 (found_pairs eqb (vec p) (vec l) (wf_vec p) eq_refl [i] Hin ltac:(lia)) Hfd [o] x) as (y & Hy & He).
    + constructor; [cbn; lia|constructor].
    + rewrite Hel. exact Hx.
    + exists y. split; [|exact He]. cbn [elems vec] in Hy. rewrite <- Hy. f_equal. unfold shift. cbn. lia.
  - intros H. rewrite <- Hpos.
    apply (find_complete eqb (vec p) (vec l) (wf_vec p) (wf_vec l) eq_refl [i] Hin); [exact Hp|].
    intros o x Ho Hx. inversion Ho as [|? j ? o' Hj Ho']; subst. inversion Ho'; subst. rewrite Hel in Hx.
    destruct (H j x Hx) as (y & Hy & He). cbn [combine map fst snd]. pose proof (znth_some_range _ _ _ Hy).
    split; [constructor; [lia|constructor]|]. exists y. rewrite Hel. split; assumption.
Qed.
Print Assumptions C31_find_vector.
(* Equal ranks, any rank: no occurrence is missed, and where the pattern fits a
   mark means an occurrence -- provided that no comparison runs past the end of
   R (which a pattern of one row never does). *)
Theorem C31_find_array_partial :
  forall (A : Type) (feq : A -> A -> outcome bool) (eqb : A -> A -> bool) (L R : arr A),
  wf L -> wf R -> length (dims L) = length (dims R) -> elems L <> [] ->
  (forall x y, In y (elems R) -> feq x y = Ok (eqb x y)) ->
  (forall i o, 0 <= i -> i + size (dims L) <= size (dims R) -> inb (dims L) o -> i + pos (dims R) o < size (dims R)) ->
  exists r, find feq (Arr L) (Arr R) = Ok (Arr r) /\ wf r /\ dims r = dims R /\ (forall idx, inb (dims R) idx -> occurs_at eqb L R idx -> elem r idx = Some true) /\
  (forall idx, inb (dims R) idx -> (forall o, inb (dims L) o -> inb (dims R) (map (fun q => fst q + snd q) (combine idx o))) ->
       elem r idx = Some true -> occurs_at eqb L R idx).
Proof.
  intros A feq eqb L R HL HR Hrank Hne Hf Hnp.
  pose proof (find_value feq eqb L R HL HR Hrank Hf (fun i Hi Hs o Ho => Hnp i o Hi Hs Ho)) as HV.
  pose proof HR as (HR1 & HR2 & HR3). pose proof (size_nonneg _ HR2).
  eexists. split; [exact HV|]. split; [|split; [reflexivity|split]].
  - split; [exact HR1|split; [exact HR2|]]. cbn [dims elems]. zla. lia.
  - intros idx Hi Ho. rewrite (find_elem eqb L R Hrank idx Hi). f_equal. eapply find_complete; eassumption.
  - intros idx Hi Hfit He. rewrite (find_elem eqb L R Hrank idx Hi) in He. injection He as He.
    eapply find_sound; try eassumption.
Qed.
Print Assumptions C31_find_array_partial.
(* a pattern of lower rank is given leading axes of length 1 *)
Theorem C31_find_lower_rank :
  forall (A : Type) (feq : A -> A -> outcome bool) (L R : arr A),
  wf L -> wf R -> (length (dims L) < length (dims R))%nat ->
  find feq (Arr L) (Arr R) =
  find feq (Arr (mkArr (repeat 1 (length (dims R) - length (dims L)) ++ dims L) (elems L))) (Arr R).
Proof.
  intros A feq L R (L1 & L2 & L3) (R1 & R2 & R3) Hlt. unfold find. cbn [asArr dims elems].
  set (d := (length (dims R) - length (dims L))%nat).
  assert (Hd : (0 < d)%nat) by (unfold d; lia).
  replace (zlen (dims R) <? zlen (dims L)) with false by (unfold zlen; lia).
  assert (Hl : length (repeat 1 d ++ dims L) = length (dims R)) by (rewrite app_length, repeat_length; unfold d; lia).
  replace (zlen (dims R) <? zlen (repeat 1 d ++ dims L)) with false by (unfold zlen; rewrite Hl; lia).
  replace (length (dims R) - length (repeat 1%Z d ++ dims L))%nat with 0%nat by lia.
  assert (Hs : size (repeat 1 d ++ dims L) = size (dims L)).
  { rewrite size_app. assert (size (repeat 1 d) = 1) as ->; [|lia]. clear. induction d; cbn [repeat size]; lia. }
  assert (Hp : Prod (repeat 1 d ++ dims L) = zlen (elems L)).
  { rewrite Prod_size; [rewrite Hs; lia|]. destruct d; [lia|discriminate]. }
  replace (0 <? d)%nat with true by (symmetry; apply Nat.ltb_lt; exact Hd). cbn [Nat.ltb Nat.leb repeat app andb].
  rewrite Hp, Z.ltb_irrefl. rewrite firstn_all2 by (unfold zlen; lia). reflexivity.
Qed.
Print Assumptions C31_find_lower_rank.
(* What goes wrong (find.go:60-80 has no bounds check per axis): a pattern that
   does not fit at the end of a row is continued in the next row; a tall
   pattern is compared past the end of R, which panics. *)
Theorem C31_find_wraps_refuted :
  let feq := fun x y => Ok (x =? y) in
  find feq (Arr (vec [2; 3])) (Arr (mkArr [2; 2] [1; 2; 3; 4])) = Ok (Arr (mkArr [2; 2] [false; true; false; false])) /\
  ~ occurs_at Z.eqb (mkArr [1; 2] [2; 3]) (mkArr [2; 2] [1; 2; 3; 4]) [0; 1] /\
  find feq (Arr (mkArr [2; 1] [3; 4])) (Arr (mkArr [2; 2] [1; 2; 3; 4])) = Panic.
Proof.
  cbv zeta. split; [vm_compute; reflexivity|]. split.
  - intros H. destruct (H [0; 1] 3) as (Hi & _).
    + constructor; [lia|constructor; [lia|constructor]].
    + reflexivity.
    + cbn in Hi. inversion Hi as [|? ? ? ? _ Hi2]; subst. inversion Hi2; subst. lia.
  - vm_compute; reflexivity.
Qed.
Print Assumptions C31_find_wraps_refuted.
Example C31_example :
  find (fun x y => Ok (x =? y)) (Arr (vec [1; 2; 1])) (Arr (vec [1; 2; 1; 2; 1; 1; 2])) =
    Ok (Arr (vec [true; false; true; false; false; false; false])) /\
  find (fun x y => Ok (x =? y)) (Arr (mkArr [1; 2] [2; 3])) (Arr (mkArr [2; 3] [1; 2; 3; 2; 3; 1])) =
    Ok (Arr (mkArr [2; 3] [false; true; false; true; false; false])) /\
  (forall i o, 0 <= i -> i + size [1; 2] <= size [2; 3] -> inb [1; 2] o -> i + pos [2; 3] o < size [2; 3]).
Proof.
  split; [vm_compute; reflexivity|]. split; [vm_compute; reflexivity|].
  intros i o Hi Hs Ho. inversion Ho as [|? j ? o' Hj Ho']; subst. inversion Ho' as [|? k ? o'' Hk Ho'']; subst. inversion Ho''; subst.
  cbn [pos size] in *. lia.
Qed.
