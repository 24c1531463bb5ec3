(* Prop_Idioms.v -- C157: idioms that combine several primitives; C158: laws of the matrix product. *)
From Coq Require Import List Bool ZArith Lia Permutation.
From Verif Require Import Base Eff M_Array S_Array P_Array M_Structural S_Structural P_Structural P_Take P_Comma M_Search S_Search P_Search M_Index S_Index P_Index M_Reduce S_Reduce P_Reduce M_Operators S_Operators P_Operators
  Prop_Structural Prop_Search Prop_Index Prop_Reduce Prop_Operators.
Import ListNotations.
Open Scope list_scope. Open Scope Z_scope.

(* the elements of l at the positions p, counted from 0 *)
Definition picked {A} (l : list A) (p : list Z) (r : list A) : Prop := Forall2 (fun i x => znth l i = Some x) p r.
Lemma pick_exists {A} (l : list A) p : Forall (fun i => 0 <= i < zlen l) p -> exists r, picked l p r.
Proof.
  induction 1 as [|i p H _ (r & R)]; [exists []; constructor|]. destruct (znth l i) as [x|] eqn:E; [|apply znth_none in E; lia].
  exists (x :: r). constructor; assumption.
Qed.
Lemma index_vector {A} o (l : list A) p r : picked l p r -> zlen p <> 1 -> index o [AxInts (map (fun i => i + o) p)] (vec l) = Ok (Arr (vec r)).
Proof.
  intros P N0. assert (Hin : Forall (fun i => 0 <= i < zlen l) p).
  { apply Forall_forall. intros i Hi. apply In_znth in Hi. destruct Hi as (j & Hj). destruct (znth_some_range _ _ _ Hj).
    assert (HZ : zlen p = zlen r) by (unfold zlen; f_equal; eapply Forall2_length; exact P).
    destruct (znth r j) as [x|] eqn:E; [|apply znth_none in E; lia].
    pose proof (Forall2_znth _ _ _ P j i x Hj E) as E2. cbv beta in E2. apply znth_some_range in E2. exact E2. }
  assert (W : wf (vec l)) by (apply wf_vec).
  assert (Se : selects o [AxInts (map (fun i => i + o) p)] (dims (vec l)) [p]) by (apply sel_cons; [split; [reflexivity|exact Hin]|apply sel_nil]).
  destruct (C17_selects o _ (vec l) [p] W Se) as (v & E & Hz & He). destruct (C18_shape o _ (vec l) [p] W Se) as (v2 & E2 & Hs & Ne).
  rewrite E in E2. injection E2 as <-. rewrite E. f_equal.
  assert (HZ : zlen p = zlen r) by (unfold zlen; f_equal; eapply Forall2_length; exact P).
  cbn [map filter] in Hs. replace (negb (zlen p =? 1)) with true in Hs by (destruct (zlen p =? 1) eqn:E1; [lia|reflexivity]).
  destruct v as [x| |a]; cbn [shapeOf] in Hs; [discriminate Hs|congruence|]. destruct a as [ds es]. cbn [dims elemsOf elems] in *. subst ds. f_equal. unfold vec. rewrite HZ. f_equal.
  cbn [size map] in Hz. apply znth_ext; [lia|]. intros j Hj. assert (L2 : 0 <= j < zlen p) by lia.
  destruct (He [j]) as (idx & Ad & _ & Ez & _); [repeat constructor; lia|]. inversion Ad as [|? ? i ? ? idx' Hi Ad' E3 E4 E5]. subst. inversion Ad'. subst.
  cbn [pos map size] in Ez. replace (j * 1 + 0) with j in Ez by lia. rewrite Ez.
  destruct (znth r j) as [x|] eqn:Er; [|apply znth_none in Er; lia]. pose proof (Forall2_znth _ _ _ P j i x Hi Er) as Q. cbv beta in Q.
  rewrite <- Q. unfold elem, vec. cbn [elems dims pos size]. f_equal. lia.
Qed.
Lemma picked_fun {A} (l : list A) p r1 r2 : picked l p r1 -> picked l p r2 -> r1 = r2.
Proof. intros H. revert r2. induction H as [|i x p r E _ IH]; intros r2 H2; inversion H2; subst; [reflexivity|]. f_equal; [congruence|apply IH; assumption]. Qed.
Lemma picked_perm {A} (l : list A) p q : Permutation p q -> forall r, picked l p r -> exists r', picked l q r' /\ Permutation r r'.
Proof.
  induction 1 as [|i p q _ IH|i j p|p q w _ IH1 _ IH2]; intros r R.
  - inversion R. subst. exists []. repeat constructor.
  - inversion R as [|? x ? r0 E R0]. subst. destruct (IH _ R0) as (r' & H1 & H2). exists (x :: r'). split; [constructor; assumption|constructor; exact H2].
  - inversion R as [|? x ? r0 E R0]. subst. inversion R0 as [|? y ? r1 E1 R1]. subst. exists (y :: x :: r1). split; [constructor; [|constructor]; assumption|constructor].
  - destruct (IH1 _ R) as (r1 & H1 & P1). destruct (IH2 _ H1) as (r2 & H2 & P2). exists r2. split; [exact H2|eapply perm_trans; eassumption].
Qed.
Lemma picked_all {A} (l : list A) : picked l (zseq (zlen l)) l.
Proof.
  apply Forall2_from_znth; [rewrite zlen_zseq; pose proof (zlen_nonneg l); lia|]. intros i x y H1 H2. destruct (znth_some_range _ _ _ H1) as [Ha Hb]. rewrite zlen_zseq in Hb.
  rewrite znth_zseq in H1 by lia. injection H1 as <-. exact H2.
Qed.
Lemma picked_permutation {A} (l : list A) p r : Permutation p (zseq (zlen l)) -> picked l p r -> Permutation l r.
Proof.
  intros P R. destruct (picked_perm l p _ P r R) as (r' & H1 & H2). rewrite (picked_fun l _ _ _ H1 (picked_all l)) in H2. symmetry. exact H2.
Qed.
Lemma shifted o idx l : Permutation idx (map (fun i => i + o) l) -> exists p, idx = map (fun i => i + o) p /\ Permutation p l.
Proof.
  intros P. exists (map (fun i => i - o) idx). split.
  - rewrite map_map. rewrite <- (map_id idx) at 1. apply map_ext. intros; lia.
  - apply (Permutation_map (fun i => i - o)) in P. rewrite map_map in P. eapply perm_trans; [exact P|]. rewrite (map_ext _ (fun i => i)) by (intros; lia). rewrite map_id. reflexivity.
Qed.
Lemma picked_znth {A} (l : list A) p r : picked l p r -> forall k i x, znth p k = Some i -> znth r k = Some x -> znth l i = Some x.
Proof. intros P k i x H1 H2. exact (Forall2_znth _ _ _ P k i x H1 H2). Qed.
Lemma picked_len {A} (l : list A) p r : picked l p r -> zlen p = zlen r.
Proof. intros P. unfold zlen. f_equal. eapply Forall2_length, P. Qed.

(* V[⍋V] and V[⍒V] are V, sorted; for vectors of two or more elements *)
Theorem C157_sort : forall (A : Type) (srt : sorter) (lt : A -> A -> bool) up origin (l : list A),
  go_sort srt -> 2 <= zlen l -> swo_on (fun x => In x l) lt ->
  exists idx r, grade srt lt Some up origin (Arr (vec l)) = Ok (Arr (vec idx)) /\ index origin [AxInts idx] (vec l) = Ok (Arr (vec r)) /\
    Permutation l r /\ forall i j x y, i < j -> znth r i = Some x -> znth r j = Some y -> if up then lt y x = false else lt x y = false.
Proof.
  intros A srt lt up origin l GS Hl SW. destruct (C29_grade_vector A srt lt up origin l GS) as (idx & E & P & S); [intros ->; rewrite zlen_nil in Hl; lia|exact SW|].
  destruct (shifted _ _ _ P) as (p & -> & Pp).
  assert (Hlen : zlen p = zlen l). { unfold zlen at 1. rewrite (Permutation_length Pp). fold (zlen (zseq (zlen l))). rewrite zlen_zseq. lia. }
  destruct (pick_exists l p) as (r & R). { apply Forall_forall. intros i Hi. apply (Permutation_in _ Pp) in Hi. apply In_zseq in Hi. lia. }
  exists (map (fun i => i + origin) p), r. split; [exact E|]. split; [apply index_vector; [exact R|lia]|]. split; [apply (picked_permutation l p r Pp R)|].
  intros i j x y Hij Hx Hy. pose proof (picked_len _ _ _ R) as HL.
  destruct (znth p i) as [pi|] eqn:Ei; [|apply znth_none in Ei; apply znth_some_range in Hx; lia].
  destruct (znth p j) as [pj|] eqn:Ej; [|apply znth_none in Ej; apply znth_some_range in Hy; lia].
  apply (S i j (pi + origin) (pj + origin) x y Hij).
  - rewrite znth_map, Ei. reflexivity.
  - rewrite znth_map, Ej. reflexivity.
  - replace (pi + origin - origin) with pi by lia. exact (picked_znth _ _ _ R _ _ _ Ei Hx).
  - replace (pj + origin - origin) with pj by lia. exact (picked_znth _ _ _ R _ _ _ Ej Hy).
Qed.
Lemma index_one {A} o (l : list A) i x : znth l i = Some x -> index o [AxInts [i + o]] (vec l) = Ok (Scal x).
Proof.
  intros Hx. pose proof (znth_some_range _ _ _ Hx) as Hr. assert (W : wf (vec l)) by apply wf_vec.
  assert (Se : selects o [AxInts [i + o]] (dims (vec l)) [[i]]) by (apply sel_cons; [split; [reflexivity|repeat constructor; lia]|apply sel_nil]).
  destruct (C17_selects o _ (vec l) [[i]] W Se) as (v & E & Hz & He). destruct (proj1 (C18_scalar o _ (vec l) [[i]] W Se)) as (y & E2).
  { intros k [<-|[]]. reflexivity. }
  rewrite E in E2. injection E2 as ->. rewrite E. do 2 f_equal. destruct (He [0]) as (idx & Ad & _ & Ez & _); [repeat constructor; lia|].
  inversion Ad as [|? ? i' ? ? idx' Hi Ad' E3 E4 E5]. subst. inversion Ad'. subst. injection Hi as <-. unfold elem, vec in Ez. cbn [elems dims pos size map elemsOf] in Ez.
  replace (i * 1 + 0) with i in Ez by lia. rewrite Hx in Ez. injection Ez as ->. reflexivity.
Qed.
(* but a vector of one element becomes a scalar, as bracket indexing drops axes of length one *)
Theorem C157_sort_one_refuted : forall (A : Type) (srt : sorter) (lt : A -> A -> bool) up origin (x : A),
  go_sort srt -> lt x x = false ->
  exists idx, grade srt lt Some up origin (Arr (vec [x])) = Ok (Arr (vec idx)) /\ index origin [AxInts idx] (vec [x]) = Ok (Scal x).
Proof.
  intros A srt lt up origin x GS SW. destruct (C29_grade_vector A srt lt up origin [x] GS) as (idx & E & P & _); [discriminate| |].
  { unfold swo_on. repeat split; intros; repeat match goal with H : In _ [x] |- _ => destruct H as [<-|[]] end; congruence. }
  change (map (fun i => i + origin) (zseq (zlen [x]))) with [0 + origin] in P. apply Permutation_sym, Permutation_length_1_inv in P. subst idx. exists [0 + origin]. split; [exact E|].
  apply index_one. reflexivity.
Qed.
(* P[⍋P] of a permutation P is ⍳⍴P: ⍋ inverts permutations *)
Inductive ascending : list Z -> Prop := asc_nil : ascending [] | asc_cons x l : Forall (fun y => x <= y) l -> ascending l -> ascending (x :: l).
Lemma ascending_unique : forall l1, ascending l1 -> forall l2, ascending l2 -> Permutation l1 l2 -> l1 = l2.
Proof.
  induction 1 as [|x l1 F A1 IH]; intros l2 A2 P; [apply Permutation_nil in P; congruence|]. destruct A2 as [|y l2 F2 A2]; [apply Permutation_sym, Permutation_nil in P; discriminate P|].
  assert (E : x = y).
  { rewrite Forall_forall in F, F2. assert (Hx : In x (y :: l2)) by (apply (Permutation_in _ P); left; reflexivity). assert (Hy : In y (x :: l1)) by (apply (Permutation_in _ (Permutation_sym P)); left; reflexivity).
    destruct Hx as [Hx|Hx]; [congruence|]. destruct Hy as [Hy|Hy]; [congruence|]. specialize (F y Hy). specialize (F2 x Hx). cbv beta in F, F2. lia. }
  subst y. f_equal. apply IH; [exact A2|]. eapply Permutation_cons_inv, P.
Qed.
Lemma ascending_znth : forall r, (forall i j x y, i < j -> znth r i = Some x -> znth r j = Some y -> x <= y) -> ascending r.
Proof.
  induction r as [|x r IH]; intros S; constructor.
  - apply Forall_forall. intros y Hy. apply In_znth in Hy. destruct Hy as (j & Hj). pose proof (znth_some_range _ _ _ Hj) as Hr. apply (S 0 (j + 1) x y); [lia|apply znth_cons_0|].
    rewrite znth_cons_pos by lia. replace (j + 1 - 1) with j by lia. exact Hj.
  - apply IH. intros i j a b Hij Ha Hb. pose proof (znth_some_range _ _ _ Ha). pose proof (znth_some_range _ _ _ Hb).
    apply (S (i + 1) (j + 1) a b); [lia| |]; rewrite znth_cons_pos by lia; [replace (i + 1 - 1) with i by lia; exact Ha|replace (j + 1 - 1) with j by lia; exact Hb].
Qed.
Theorem C157_inverse : forall (srt : sorter) origin (P : list Z) n, go_sort srt -> 2 <= n -> Permutation P (map (fun i => i + origin) (zseq n)) ->
  exists q, grade srt Z.ltb Some true origin (Arr (vec P)) = Ok (Arr (vec q)) /\ Permutation q (map (fun i => i + origin) (zseq n)) /\
    index origin [AxInts q] (vec P) = interval origin n.
Proof.
  intros srt origin P n GS Hn PP. assert (HL : zlen P = n) by (unfold zlen; rewrite (Permutation_length PP), map_length; fold (zlen (zseq n)); rewrite zlen_zseq; lia).
  assert (SW : swo_on (fun x => In x P) Z.ltb) by (unfold swo_on; repeat split; intros; lia).
  destruct (C157_sort Z srt Z.ltb true origin P GS ltac:(lia) SW) as (q & r & E1 & E2 & Pr & S).
  exists q. split; [exact E1|]. split.
  - destruct (C29_grade_vector Z srt Z.ltb true origin P GS) as (q2 & E3 & Pq & _); [intros ->; rewrite zlen_nil in HL; lia|exact SW|]. rewrite E1 in E3. injection E3 as E3 E4. rewrite <- E4, HL in Pq. exact Pq.
  - rewrite E2. destruct (C22_interval origin n) as (_ & _ & HI). destruct (HI ltac:(lia)) as ([ds es] & EI & D & Z0 & He). rewrite EI. cbn [dims elems] in *. subst ds. unfold vec. do 2 f_equal.
    assert (Eq : r = map (fun i => i + origin) (zseq n)).
    { apply ascending_unique.
      - apply ascending_znth. intros i j x y Hij Hx Hy. specialize (S i j x y Hij Hx Hy). cbv beta iota in S. lia.
      - apply ascending_znth. intros i j x y Hij Hx Hy. rewrite znth_map in Hx, Hy. destruct (znth (zseq n) i) as [a|] eqn:Ea; [|discriminate Hx]. destruct (znth (zseq n) j) as [b|] eqn:Eb; [|discriminate Hy].
        pose proof (znth_some_range _ _ _ Ea) as R1. pose proof (znth_some_range _ _ _ Eb) as R2. rewrite zlen_zseq in R1, R2. rewrite znth_zseq in Ea, Eb by lia. cbn [option_map] in *. injection Ea as <-. injection Eb as <-. injection Hx as <-. injection Hy as <-. lia.
      - eapply perm_trans; [symmetry; exact Pr|exact PP]. }
    assert (HZ : zlen r = n) by (rewrite Eq; unfold zlen; rewrite map_length; fold (zlen (zseq n)); rewrite zlen_zseq; lia).
    rewrite HZ. f_equal. apply znth_ext; [lia|]. intros i Hi. rewrite He by lia. rewrite Eq, znth_map, znth_zseq by lia. cbn [option_map]. f_equal. lia.
Qed.
(* V~W is (~V∊W)/V *)
Definition b2z (b : bool) : Z := if b then 1 else 0.
Theorem C157_without : forall (A : Type) (zero : A) (eqv : A -> A -> bool) (l r : list A), l <> [] ->
  exists m, membership eqv (Arr (vec l)) (Arr (vec r)) = Arr (vec m) /\
    without zero eqv (Arr (vec l)) (Arr (vec r)) = Replicate zero (vec (map (fun b => b2z (negb b)) m)) (Arr (vec l)) (-1).
Proof.
  intros A zero eqv l r N0. destruct (C24_membership A eqv (Arr (vec r))) as (HM & _). destruct (HM (vec l) (wf_vec l)) as ([ds m] & E & W & D & Hm). cbn [dims elems] in *.
  cbn [vec dims] in D. subst ds. assert (HZ : zlen m = zlen l) by (destruct W as (_ & _ & W); cbn [elems dims size] in W; lia). exists m. split; [rewrite E; unfold vec; rewrite HZ; reflexivity|].
  destruct (C26_without_partial A zero eqv l r) as (HW & _). rewrite (HW N0), C36_compress.
  - match goal with |- Ok (Arr (vec ?X)) = Ok (Arr (vec ?Y)) => assert (EL : X = Y); [|rewrite EL; reflexivity] end.
    assert (G : forall i x, znth l i = Some x -> znth m i = Some (existsb (eqv x) r)).
    { intros i x Hx. pose proof (znth_some_range _ _ _ Hx) as Hr. destruct (Hm [i] x) as (b & Hb & Hiff); [repeat constructor; lia|unfold elem, vec; cbn [elems dims pos size]; rewrite <- Hx; f_equal; lia|].
      unfold elem in Hb. cbn [elems dims pos size] in Hb. replace (i * 1 + 0) with i in Hb by lia. rewrite Hb. f_equal. apply eq_true_iff_eq. rewrite Hiff, existsb_exists. reflexivity. }
    clear -G HZ. revert m G HZ. induction l as [|x l IH]; intros m G HZ; [destruct m; reflexivity|]. destruct m as [|b m]; [rewrite zlen_nil, zlen_cons in HZ; pose proof (zlen_nonneg l); lia|].
    pose proof (G 0 x (znth_cons_0 _ _)) as G0. rewrite znth_cons_0 in G0. injection G0 as ->. cbn [map filter combine fst].
    assert (IH' : filter (fun x0 => negb (existsb (eqv x0) r)) l = map snd (filter (fun p => fst p =? 1) (combine (map (fun b => b2z (negb b)) m) l))).
    { apply IH; [|rewrite !zlen_cons in HZ; lia]. intros i y Hy. pose proof (znth_some_range _ _ _ Hy). specialize (G (i + 1) y). rewrite !znth_cons_pos in G by lia. replace (i + 1 - 1) with i in G by lia. apply G, Hy. }
    destruct (existsb (eqv x) r); cbn [negb b2z]; [exact IH'|]. change (1 =? 1) with true. cbn iota. cbn [map snd]. f_equal. exact IH'.
  - unfold bools. apply Forall_forall. intros z Hz. apply in_map_iff in Hz. destruct Hz as (b & <- & _). destruct b; cbn; lia.
  - unfold zlen. rewrite map_length. exact HZ.
Qed.
(* V∊W is (W⍳V)<⎕IO+⍴W *)
Theorem C157_member_index : forall (A : Type) (eqv : A -> A -> bool) origin (V : arr A) (w : list A), wf V ->
  exists m p, membership eqv (Arr V) (Arr (vec w)) = Arr m /\ indexof eqv origin (Arr (vec w)) (Arr V) = Arr p /\ dims m = dims V /\ dims p = dims V /\
    forall i, inb (dims V) i -> exists b k, elem m i = Some b /\ elem p i = Some k /\ (b = true <-> k < origin + zlen w).
Proof.
  intros A eqv origin V w W. destruct (C24_membership A eqv (Arr (vec w))) as (HM & _). destruct (HM V W) as (m & E & Wm & D & Hm).
  destruct (C23_indexof A eqv origin w V W) as (p & E2 & Wp & D2 & Hp). exists m, p. repeat (split; [assumption|]). intros i Hi.
  destruct (elem V i) as [x|] eqn:Ex.
  2: { exfalso. unfold elem in Ex. apply znth_none in Ex. destruct W as (_ & _ & W). pose proof (pos_range _ _ Hi). lia. }
  destruct (Hm i x Hi Ex) as (b & Hb & Hiff). destruct (Hp i x Hi Ex) as (k & Hk & Ek). exists b, (origin + k). split; [exact Hb|]. split; [exact Ek|]. rewrite Hiff.
  destruct Hk as [(Hr & (y & Hy & Ey) & _)|(-> & Hf)].
  - split; [intros _; lia|]. intros _. exists y. split; [apply (znth_In _ _ _ Hy)|exact Ey].
  - split; [|intros; lia]. intros (y & Hy & Ey). exfalso. exact (Hf y Hy Ey).
Qed.
Lemma Forall2_impl' {A B} (P Q : A -> B -> Prop) l m : (forall x y, P x y -> Q x y) -> Forall2 P l m -> Forall2 Q l m.
Proof. intros H. induction 1; constructor; auto. Qed.
(* m/V is V[⍸m], if more than one element is kept *)
Theorem C157_where : forall (A : Type) (zero : A) origin (m : list bool) (l : list A), zlen m = zlen l -> 2 <= countb (fun b => b) m ->
  exists p, where_ origin (vec m) = Ok (Arr (vec p)) /\ index origin [AxInts p] (vec l) = Replicate zero (vec (map b2z m)) (Arr (vec l)) (-1).
Proof.
  intros A zero origin m l HZ HC.
  assert (G : forall m (l : list A) i, zlen m = zlen l -> exists q, where_loop origin i m = map (fun k => k + origin) q /\
    Forall2 (fun k x => znth l (k - i) = Some x) q (map snd (filter (fun p => fst p =? 1) (combine (map b2z m) l)))).
  { clear. induction m as [|b m IH]; intros l i HZ; [exists []; split; [reflexivity|constructor]|].
    destruct l as [|x l]; [rewrite zlen_nil, zlen_cons in HZ; pose proof (zlen_nonneg m); lia|]. rewrite !zlen_cons in HZ. destruct (IH l (i + 1) ltac:(lia)) as (q & E & F). cbn [where_loop map combine filter fst].
    assert (F' : Forall2 (fun k y => znth (x :: l) (k - i) = Some y) q (map snd (filter (fun p => fst p =? 1) (combine (map b2z m) l)))).
    { eapply Forall2_impl'; [|exact F]. cbv beta. intros k y Hy. pose proof (znth_some_range _ _ _ Hy). rewrite znth_cons_pos by lia. replace (k - i - 1) with (k - (i + 1)) by lia. exact Hy. }
    destruct b; cbn [b2z].
    - exists (i :: q). change (1 =? 1) with true. cbn iota. cbn [map snd]. split; [rewrite E; f_equal; lia|]. constructor; [replace (i - i) with 0 by lia; apply znth_cons_0|exact F'].
    - exists q. change (0 =? 1) with false. cbn iota. split; [exact E|exact F']. }
  destruct (G m l 0 HZ) as (q & E & F). exists (map (fun k => k + origin) q).
  assert (N0 : zlen m <> 0). { intros E0. destruct m; [|rewrite zlen_cons in E0; pose proof (zlen_nonneg m); lia]. unfold countb in HC. cbn in HC. unfold zlen in HC. cbn in HC. lia. }
  assert (Hq : zlen q = countb (fun b => b) m). { rewrite <- (where_loop_len origin m 0), E. unfold zlen. rewrite map_length. reflexivity. }
  split.
  - unfold where_. cbn [elems dims vec]. replace (zlen m =? 0) with false by lia. change (negb (zlen [zlen m] =? 1)) with false. cbn iota. rewrite E. reflexivity.
  - rewrite C36_compress.
    + apply index_vector; [|lia]. eapply Forall2_impl'; [|exact F]. cbv beta. intros k x Hx. replace (k - 0) with k in Hx by lia. exact Hx.
    + unfold bools. apply Forall_forall. intros z Hz. apply in_map_iff in Hz. destruct Hz as (b & <- & _). destruct b; cbn; lia.
    + unfold zlen. rewrite map_length. exact HZ.
Qed.
Lemma combine_app_len {A B} (a1 : list A) : forall (b1 : list B) a2 b2, length a1 = length b1 -> combine (a1 ++ a2) (b1 ++ b2) = combine a1 b1 ++ combine a2 b2.
Proof. induction a1 as [|x a1 IH]; intros [|y b1] a2 b2 H; try discriminate H; [reflexivity|]. cbn [app combine]. f_equal. apply IH. injection H as H. exact H. Qed.
Lemma flat_map_ext_in' {A B} (f g : A -> list B) l : (forall x, In x l -> f x = g x) -> flat_map f l = flat_map g l.
Proof. induction l as [|x l IH]; intros H; [reflexivity|]. cbn [flat_map]. rewrite H by (left; reflexivity). f_equal. apply IH. intros y Hy. apply H. right. exact Hy. Qed.
Lemma mask_flat {A} (g : Z -> Z) (l : list A) :
  map snd (filter (fun p => fst p =? 1) (combine (map g (zseq (zlen l))) l)) = flat_map (fun i => match znth l i with Some x => if g i =? 1 then [x] else [] | None => [] end) (zseq (zlen l)).
Proof.
  induction l as [|x l IH] using rev_ind; [reflexivity|]. rewrite zlen_app. change (zlen [x]) with 1. rewrite zseq_succ by apply zlen_nonneg.
  rewrite map_app, combine_app_len by (rewrite map_length; pose proof (zlen_zseq (zlen l)) as Z0; pose proof (zlen_nonneg l); unfold zlen in Z0 at 1 3; lia).
  rewrite filter_app, map_app, flat_map_app, IH. f_equal.
  - apply flat_map_ext_in'. intros i Hi. apply In_zseq in Hi. rewrite znth_app_l by lia. reflexivity.
  - cbn [flat_map map combine filter fst]. rewrite znth_app_r by lia. replace (zlen l - zlen l) with 0 by lia. rewrite znth_cons_0. destruct (g (zlen l) =? 1); reflexivity.
Qed.
(* ∪V is ((V⍳V)=⍳⍴V)/V *)
Theorem C157_unique : forall (A : Type) (zero : A) (eqv : A -> A -> bool) origin (l : list A), equivalence eqv ->
  exists p, indexof eqv origin (Arr (vec l)) (Arr (vec l)) = Arr (vec p) /\
    Replicate zero (vec (map (fun q => b2z (fst q =? snd q)) (combine p (map (fun i => i + origin) (zseq (zlen l)))))) (Arr (vec l)) (-1) = Ok (unique eqv (Arr (vec l))).
Proof.
  intros A zero eqv origin l EQ. destruct (C23_indexof A eqv origin l (vec l) (wf_vec l)) as ([ds p] & E & W & D & Hp). cbn [dims elems] in *.
  cbn [vec dims] in D. subst ds. assert (HZ : zlen p = zlen l) by (destruct W as (_ & _ & W); cbn [elems dims size] in W; lia). exists p. split; [rewrite E; unfold vec; rewrite HZ; reflexivity|].
  destruct (C25_unique A eqv l EQ) as (-> & _). destruct EQ as (RF & SY & TR).
  assert (G : forall i x, znth l i = Some x -> znth p i = Some (origin + i) <-> existsb (eqv x) (firstn (Z.to_nat i) l) = false).
  { intros i x Hx. pose proof (znth_some_range _ _ _ Hx) as Hr. destruct (Hp [i] x) as (k & Hk & Ek); [repeat constructor; lia|unfold elem, vec; cbn [elems dims pos size]; rewrite <- Hx; f_equal; lia|].
    unfold elem in Ek. cbn [elems dims pos size] in Ek. replace (i * 1 + 0) with i in Ek by lia. rewrite Ek.
    destruct Hk as [(Hkr & (y & Hy & Ey) & Hf)|(-> & Hf)].
    2: { exfalso. apply (Hf x); [apply (znth_In _ _ _ Hx)|apply RF]. }
    split.
    - intros H. injection H as H. assert (k = i) by lia. subst k. destruct (existsb (eqv x) (firstn (Z.to_nat i) l)) eqn:Ex; [|reflexivity]. apply existsb_exists in Ex. destruct Ex as (z & Hz & Ez).
      apply In_znth in Hz. destruct Hz as (j & Hj). pose proof (znth_some_range _ _ _ Hj) as Hjr. unfold zlen in Hjr. rewrite firstn_length in Hjr. rewrite znth_firstn in Hj by lia. exfalso. apply (Hf j z); [lia|exact Hj|exact Ez].
    - intros Ex. f_equal. f_equal. destruct (Z_lt_dec k i) as [L|L].
      + exfalso. apply (f_equal negb) in Ex. cbn in Ex. assert (existsb (eqv x) (firstn (Z.to_nat i) l) = true); [|rewrite H in Ex; discriminate Ex].
        apply existsb_exists. exists y. split; [|exact Ey]. apply (znth_In _ k). rewrite znth_firstn by lia. exact Hy.
      + destruct (Z.eq_dec k i) as [|N0]; [assumption|]. exfalso. apply (Hf i x); [lia|exact Hx|apply RF]. }
  rewrite C36_compress.
  - match goal with |- Ok (Arr (vec ?X)) = Ok (Arr (vec ?Y)) => assert (EL : X = Y); [|rewrite EL; reflexivity] end.
    assert (ME : map (fun q => b2z (fst q =? snd q)) (combine p (map (fun i => i + origin) (zseq (zlen l)))) = map (fun i => match znth p i with Some k => b2z (k =? i + origin) | None => 0 end) (zseq (zlen l))).
    { apply znth_ext; [unfold zlen; rewrite !map_length, combine_length, map_length; fold (zlen p); pose proof (zlen_zseq (zlen l)) as Z0; pose proof (zlen_nonneg l); unfold zlen in Z0, HZ |- *; lia|].
      intros i Hi. rewrite !znth_map. pose proof Hi as Hi2. unfold zlen in Hi2. rewrite map_length, combine_length, map_length in Hi2.
      pose proof (zlen_zseq (zlen l)) as Z0. pose proof (zlen_nonneg l) as NN. assert (HI : 0 <= i < zlen l) by (unfold zlen in Z0, HZ |- *; lia).
      destruct (znth p i) as [k|] eqn:Ek; [|apply znth_none in Ek; lia].
      rewrite (znth_combine p _ i k (i + origin) Ek) by (rewrite znth_map, znth_zseq by lia; reflexivity). rewrite znth_zseq by lia. cbn [option_map fst snd]. rewrite Ek. reflexivity. }
    rewrite ME, mask_flat. unfold firsts. apply flat_map_ext_in'. intros i Hi. apply In_zseq in Hi. destruct (znth l i) as [x|] eqn:Ex; [|reflexivity]. specialize (G i x Ex).
    destruct (znth p i) as [k|] eqn:Ek; [|apply znth_none in Ek; lia].
    destruct (existsb (eqv x) (firstn (Z.to_nat i) l)) eqn:Eb.
    + destruct (k =? i + origin) eqn:Ei; [|reflexivity]. exfalso. destruct G as (G1 & _). assert (true = false) by (apply G1; f_equal; lia). discriminate.
    + destruct G as (_ & G2). specialize (G2 eq_refl). injection G2 as G2. replace (k =? i + origin) with true by lia. reflexivity.
  - unfold bools. apply Forall_forall. intros z Hz. apply in_map_iff in Hz. destruct Hz as (q & <- & _). destruct (fst q =? snd q); cbn; lia.
  - unfold zlen. rewrite map_length, combine_length, map_length. pose proof (zlen_zseq (zlen l)) as Z0; pose proof (zlen_nonneg l); unfold zlen in Z0, HZ |- *; lia.
Qed.
(* ⌽V is V[⌽⍳⍴V] *)
Lemma reverse_vec {A} (l : list A) : exists r, reverse (Arr (vec l)) (-1) = Ok (Arr (vec r)) /\ zlen r = zlen l /\ forall i, 0 <= i < zlen l -> znth r i = znth l (zlen l - 1 - i).
Proof.
  destruct (C05_reverse A (vec l) (-1) (zlen l) (wf_vec l)) as ([ds r] & E & W & D & H); [reflexivity|]. cbn [dims elems vec] in *. subst ds.
  assert (HZ : zlen r = zlen l) by (destruct W as (_ & _ & W); cbn [elems dims size] in W; lia). exists r. split; [rewrite E; unfold vec; rewrite HZ; reflexivity|]. split; [exact HZ|].
  intros i Hi. specialize (H [i] i ltac:(repeat constructor; lia) eq_refl). unfold elem in H. cbn [dims elems vec] in H. change (norm_axis (zlen [zlen l]) (-1)) with 0 in H.
  change (zupd [i] 0 (zlen l - 1 - i)) with [zlen l - 1 - i] in H. cbn [pos size] in H. replace (i * 1 + 0) with i in H by lia. replace ((zlen l - 1 - i) * 1 + 0) with (zlen l - 1 - i) in H by lia. exact H.
Qed.
Theorem C157_reverse : forall (A : Type) origin (l : list A), 2 <= zlen l ->
  exists v p, interval origin (zlen l) = Ok (Arr v) /\ reverse (Arr v) (-1) = Ok (Arr (vec p)) /\ index origin [AxInts p] (vec l) = reverse (Arr (vec l)) (-1).
Proof.
  intros A origin l Hl. destruct (C22_interval origin (zlen l)) as (_ & _ & HI). destruct (HI ltac:(lia)) as ([ds es] & EI & D & Z0 & He). cbn [dims elems] in *. subst ds.
  assert (EV : mkArr [zlen l] es = vec es) by (unfold vec; rewrite Z0; reflexivity). rewrite EV in EI.
  destruct (reverse_vec es) as (p & Ep & Zp & Hp). destruct (reverse_vec l) as (r & Er & Zr & Hr). exists (vec es), p. split; [exact EI|]. split; [exact Ep|]. rewrite Er.
  assert (EP : p = map (fun i => i + origin) (map (fun i => zlen l - 1 - i) (zseq (zlen l)))).
  { apply znth_ext; [unfold zlen; rewrite !map_length; fold (zlen p); rewrite Zp, Z0; pose proof (zlen_zseq (zlen l)) as Q; unfold zlen in *; lia|]. intros i Hi. rewrite Hp by lia. rewrite He by lia. rewrite !znth_map, znth_zseq by lia. cbn [option_map]. f_equal. lia. }
  rewrite EP. apply index_vector.
  - apply Forall2_from_znth; [unfold zlen; rewrite map_length; fold (zlen r); pose proof (zlen_zseq (zlen l)) as Q; unfold zlen in *; lia|].
    intros i a b Ha Hb. pose proof (znth_some_range _ _ _ Hb) as R. rewrite znth_map, znth_zseq in Ha by lia. cbn [option_map] in Ha. injection Ha as <-. rewrite Hr in Hb by lia. exact Hb.
  - unfold zlen. rewrite map_length. pose proof (zlen_zseq (zlen l)) as Q; unfold zlen in *; lia.
Qed.
(* the last element of F\V is F/V *)
Theorem C157_scan_last : forall (S A : Type) (nil : A) (f : A -> A -> eff S A) (g : A -> A -> A) ident (l : list A) s, (forall x y t, f x y t = (Ok (g x y), t)) -> 2 <= zlen l ->
  exists r v, scanfunc nil f (Arr (vec l)) (-1) s = (Ok (Arr (vec r)), s) /\ zlen r = zlen l /\ reduct f ident (Arr (vec l)) (-1) s = (Ok (Scal v), s) /\ znth r (zlen l - 1) = Some v.
Proof.
  intros S A nil f g ident l s Hf Hl.
  rewrite (C34_scan_vector S A nil f l (-1) s) by (try (intros ->; rewrite zlen_nil in Hl; lia); left; reflexivity).
  rewrite (C32_reduce_vector S A f ident l (-1) s) by (try assumption; left; reflexivity).
  exists (map (fold1p g nil) (prefixes l)), (fold1p g nil l).
  assert (ZL : zlen (map (fold1p g nil) (prefixes l)) = zlen l) by (unfold prefixes, zlen; rewrite !map_length; fold (zlen (zseq (Z.of_nat (length l)))); pose proof (zlen_zseq (zlen l)) as Q; unfold zlen in *; lia).
  assert (EM : mapE (fold1 f) (prefixes l) s = (Ok (map (fold1p g nil) (prefixes l)), s)).
  { rewrite (mapE_ext _ (fun m => eret (fold1p g nil m))).
    - clear. induction (prefixes l) as [|m ms IH]; [reflexivity|]. cbn [mapE map]. unfold ebind, eret at 1. rewrite IH. reflexivity.
    - intros m t Hm. apply fold1_pure; [exact Hf|]. unfold prefixes in Hm. apply in_map_iff in Hm. destruct Hm as (i & <- & Hi). apply In_zseq in Hi. destruct l; [rewrite zlen_nil in Hl; lia|]. intros E0. apply (f_equal (@length A)) in E0. rewrite firstn_length in E0. cbn [length] in E0. lia. }
  split; [unfold ebind; rewrite EM; reflexivity|]. split; [exact ZL|]. split.
  - unfold emap, ebind. rewrite (fold1_pure f g nil l s Hf) by (intros ->; rewrite zlen_nil in Hl; lia). reflexivity.
  - unfold prefixes. rewrite !znth_map, znth_zseq by lia. cbn [option_map]. do 2 f_equal. apply firstn_all2. unfold zlen in *. lia.
Qed.
Example C157_example :
  grade isort Z.ltb Some true 1 (Arr (vec [30; 10; 20; 15])) = Ok (Arr (vec [2; 4; 3; 1])) /\
  index 1 [AxInts [2; 4; 3; 1]] (vec [30; 10; 20; 15]) = Ok (Arr (vec [10; 15; 20; 30])) /\
  grade isort Z.ltb Some true 1 (Arr (vec [2; 3; 1])) = Ok (Arr (vec [3; 1; 2])) /\ index 1 [AxInts [3; 1; 2]] (vec [2; 3; 1]) = Ok (Arr (vec [1; 2; 3])) /\
  without 0 Z.eqb (Arr (vec [1; 2; 3; 2])) (Arr (vec [2; 7])) = Ok (Arr (vec [1; 3])) /\
  Replicate 0 (vec [1; 0; 1; 0]) (Arr (vec [1; 2; 3; 2])) (-1) = Ok (Arr (vec [1; 3])) /\
  where_ 1 (vec [true; false; true]) = Ok (Arr (vec [1; 3])) /\ index 1 [AxInts [1; 3]] (vec [7; 8; 9]) = Ok (Arr (vec [7; 9])) /\
  unique Z.eqb (Arr (vec [3; 1; 3; 1; 2])) = Arr (vec [3; 1; 2]) /\ indexof Z.eqb 1 (Arr (vec [3; 1; 3; 1; 2])) (Arr (vec [3; 1; 3; 1; 2])) = Arr (vec [1; 2; 1; 2; 5]) /\
  go_sort isort /\ swo_on (fun x => In x [30; 10; 20; 15]) Z.ltb /\ equivalence Z.eqb.
Proof.
  repeat (split; [vm_compute; reflexivity|]). split; [apply isort_ok|]. split; [unfold swo_on; repeat split; intros; lia|]. unfold equivalence. repeat split; intros; lia.
Qed.
Print Assumptions C157_sort.
Print Assumptions C157_sort_one_refuted.
Print Assumptions C157_inverse.
Print Assumptions C157_without.
Print Assumptions C157_member_index.
Print Assumptions C157_where.
Print Assumptions C157_unique.
Print Assumptions C157_reverse.
Print Assumptions C157_scan_last.
