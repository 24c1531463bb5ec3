(* Prop_Product.v -- C158: laws of the inner product, of which +.× on matrices is one. *)
From Coq Require Import List Bool ZArith Lia.
From Verif Require Import Base Eff M_Array S_Array P_Array M_Structural S_Structural P_Structural P_Take P_Comma P_Decode3 M_Reduce S_Reduce P_Reduce P_Nwise M_Operators S_Operators P_Operators M_Number S_Number P_Number M_Search S_Search
  Prop_Structural Prop_Search Prop_Reduce Prop_Operators.
Import ListNotations.
Open Scope list_scope. Open Scope Z_scope.

(* the element of an array at an index, d outside of the array *)
Definition at_ {A} (d : A) (a : arr A) (idx : list Z) : A := match elem a idx with Some x => x | None => d end.
(* t 0 F (t 1 F (... F t (n-1))) *)
Definition total {A} (F : A -> A -> A) (d : A) (n : Z) (t : Z -> A) : A := fold1p F d (map t (zseq n)).
(* P is the product of L and R: the last axis of L meets the first axis of R, both of length n *)
Definition product_of {A} (F G : A -> A -> A) (d : A) (la : list Z) (n : Z) (rb : list Z) (L R P : arr A) : Prop :=
  is_array (la ++ rb) (fun idx => elem P idx) P /\
  forall I J, inb la I -> inb rb J -> elem P (I ++ J) = Some (total F d n (fun k => G (at_ d L (I ++ [k])) (at_ d R (k :: J)))).
Definition associative {A} (F : A -> A -> A) : Prop := forall x y z, F (F x y) z = F x (F y z).
Definition commutative {A} (F : A -> A -> A) : Prop := forall x y, F x y = F y x.
Definition distributes {A} (G F : A -> A -> A) : Prop := (forall x y z, G x (F y z) = F (G x y) (G x z)) /\ (forall x y z, G (F x y) z = F (G x z) (G y z)).

(* -- sums -- *)
Lemma elem_at {A} (d : A) a idx : wf a -> inb (dims a) idx -> elem a idx = Some (at_ d a idx).
Proof.
  intros W H. unfold at_. destruct (elem a idx) as [x|] eqn:E; [reflexivity|]. exfalso. unfold elem in E. apply znth_none in E. destruct W as (_ & _ & W). pose proof (pos_range _ _ H). lia.
Qed.
Lemma zseq_cons n : 0 < n -> exists l, zseq n = 0 :: l.
Proof. intros H. destruct (zseq n) as [|x l] eqn:E; [pose proof (zlen_zseq n) as Z0; rewrite E, zlen_nil in Z0; lia|]. exists l. f_equal. pose proof (znth_zseq n 0 ltac:(lia)) as Q. rewrite E, znth_cons_0 in Q. congruence. Qed.
Lemma fold_pair {A} (F : A -> A -> A) d (AS : associative F) (CO : commutative F) {B} (t u : B -> A) l : l <> [] ->
  fold1p F d (map (fun i => F (t i) (u i)) l) = F (fold1p F d (map t l)) (fold1p F d (map u l)).
Proof.
  induction l as [|x l IH]; intros N0; [contradiction|]. destruct l as [|y l]; [reflexivity|].
  change (map (fun i => F (t i) (u i)) (x :: y :: l)) with (F (t x) (u x) :: map (fun i => F (t i) (u i)) (y :: l)). change (map t (x :: y :: l)) with (t x :: map t (y :: l)). change (map u (x :: y :: l)) with (u x :: map u (y :: l)).
  rewrite !fold1p_cons by discriminate. rewrite IH by discriminate. set (p := fold1p F d (map t (y :: l))). set (q := fold1p F d (map u (y :: l))).
  rewrite (AS (t x) (u x)), <- (AS (u x) p q), (CO (u x) p), (AS p (u x) q), <- AS. reflexivity.
Qed.
Lemma fold_swap {A} (F : A -> A -> A) d (AS : associative F) (CO : commutative F) {B C} (t : B -> C -> A) l m : l <> [] -> m <> [] ->
  fold1p F d (map (fun i => fold1p F d (map (fun j => t i j) m)) l) = fold1p F d (map (fun j => fold1p F d (map (fun i => t i j) l)) m).
Proof.
  intros N1 N2. induction l as [|x l IH]; [contradiction|]. destruct l as [|y l].
  - cbn [map fold1p]. reflexivity.
  - change (map (fun i => fold1p F d (map (fun j => t i j) m)) (x :: y :: l)) with (fold1p F d (map (fun j => t x j) m) :: map (fun i => fold1p F d (map (fun j => t i j) m)) (y :: l)).
    rewrite fold1p_cons by discriminate. rewrite IH by discriminate. rewrite <- (fold_pair F d AS CO) by exact N2. f_equal.
Qed.
Lemma fold_mul_l {A} (F G : A -> A -> A) d (D : distributes G F) {B} (t : B -> A) x l : l <> [] -> G x (fold1p F d (map t l)) = fold1p F d (map (fun i => G x (t i)) l).
Proof.
  intros N0. induction l as [|y l IH]; [contradiction|]. destruct l as [|z l]; [reflexivity|]. change (map t (y :: z :: l)) with (t y :: map t (z :: l)). change (map (fun i => G x (t i)) (y :: z :: l)) with (G x (t y) :: map (fun i => G x (t i)) (z :: l)).
  rewrite !fold1p_cons by discriminate. rewrite (proj1 D), IH by discriminate. reflexivity.
Qed.
Lemma fold_mul_r {A} (F G : A -> A -> A) d (D : distributes G F) {B} (t : B -> A) x l : l <> [] -> G (fold1p F d (map t l)) x = fold1p F d (map (fun i => G (t i) x) l).
Proof.
  intros N0. induction l as [|y l IH]; [contradiction|]. destruct l as [|z l]; [reflexivity|]. change (map t (y :: z :: l)) with (t y :: map t (z :: l)). change (map (fun i => G (t i) x) (y :: z :: l)) with (G (t y) x :: map (fun i => G (t i) x) (z :: l)).
  rewrite !fold1p_cons by discriminate. rewrite (proj2 D), IH by discriminate. reflexivity.
Qed.
Lemma zseq_ne n : 0 < n -> zseq n <> [].
Proof. intros H. destruct (zseq_cons n H) as (l & ->). discriminate. Qed.

(* -- the product of the code -- *)
Lemma inner_fold_pure {S A} (f g : A -> A -> eff S A) (F G : A -> A -> A) d ps s : (forall x y t, f x y t = (Ok (F x y), t)) -> (forall x y t, g x y t = (Ok (G x y), t)) -> ps <> [] ->
  inner_fold f g ps s = (Ok (fold1p F d (map (fun p => G (fst p) (snd p)) ps)), s).
Proof.
  intros Hf Hg. induction ps as [|[x y] ps IH]; intros N0; [contradiction|]. destruct ps as [|p ps]; [cbn [inner_fold map fold1p fst snd]; apply Hg|].
  change (inner_fold f g ((x, y) :: p :: ps) s) with ((let! v := inner_fold f g (p :: ps) in let! u := g x y in f u v) s). unfold ebind at 1. rewrite IH by discriminate.
  unfold ebind. rewrite Hg, Hf. do 2 f_equal.
Qed.
Lemma line_map {A} (d : A) (a : arr A) k n j : wf a -> (forall i, 0 <= i < n -> inb (dims a) (ins k i j)) -> line a k n j = map (fun i => at_ d a (ins k i j)) (zseq n).
Proof.
  intros W H. unfold line. assert (G : forall l, (forall i, In i l -> 0 <= i < n) -> flat_map (fun i => match elem a (ins k i j) with Some x => [x] | None => [] end) l = map (fun i => at_ d a (ins k i j)) l).
  { induction l as [|i l IH]; intros Hl; [reflexivity|]. cbn [flat_map map]. rewrite (elem_at d a _ W (H i (Hl i (or_introl eq_refl)))), IH by (intros; apply Hl; right; assumption). reflexivity. }
  apply G. intros i Hi. apply In_zseq in Hi. exact Hi.
Qed.
Lemma combine_map {B C D} (f : B -> C) (g : B -> D) l : combine (map f l) (map g l) = map (fun i => (f i, g i)) l.
Proof. induction l as [|x l IH]; [reflexivity|]. cbn [map combine]. f_equal. exact IH. Qed.
Lemma inb_nonneg' ds idx : inb ds idx -> zlen ds = zlen idx.
Proof. intros H. unfold zlen. f_equal. eapply Forall2_length, H. Qed.
Lemma all_idx_inb ds idx : In idx (all_idx ds) -> inb ds idx.
Proof.
  revert idx. induction ds as [|d ds IH]; intros idx H; cbn [all_idx] in H; [destruct H as [<-|[]]; constructor|]. apply in_flat_map in H. destruct H as (i & Hi & H). apply in_map_iff in H. destruct H as (r & <- & H). apply In_zseq in Hi. constructor; [exact Hi|apply IH, H].
Qed.
Lemma ins_end la I k : inb la I -> ins (zlen la) k I = I ++ [k].
Proof. intros H. unfold ins. assert (E : length la = length I) by (eapply Forall2_length; exact H). unfold zlen. rewrite Nat2Z.id, E, firstn_all, skipn_all. reflexivity. Qed.
Lemma pairs_eq {A} (d : A) (L R : arr A) la n rb I J : wf L -> wf R -> dims L = la ++ [n] -> dims R = n :: rb -> inb la I -> inb rb J ->
  combine (line L (zlen la) n I) (line R 0 n J) = map (fun k => (at_ d L (I ++ [k]), at_ d R (k :: J))) (zseq n).
Proof.
  intros WL WR DL DR HI HJ. rewrite (line_map d L) by (try assumption; intros i Hi; rewrite ins_end, DL by exact HI; (apply inb_app; [exact HI|repeat constructor; lia])).
  rewrite (line_map d R) by (try assumption; intros i Hi; rewrite DR; (constructor; [exact Hi|exact HJ])). rewrite combine_map. apply map_ext. intros k. rewrite ins_end by exact HI. reflexivity.
Qed.

(* L f.g R has the axes of L without the last one, then those of R without the first one, and its elements are the totals *)
Theorem C158_elements : forall (S A : Type) (f g : A -> A -> eff S A) (F G : A -> A -> A) (d : A) (L R : arr A) la n rb s,
  (forall x y t, f x y t = (Ok (F x y), t)) -> (forall x y t, g x y t = (Ok (G x y), t)) ->
  wf L -> wf R -> dims L = la ++ [n] -> dims R = n :: rb -> la ++ rb <> [] -> 0 < n ->
  exists P, inner f g (Arr L) (Arr R) s = (Ok (Arr P), s) /\ product_of F G d la n rb L R P.
Proof.
  intros S A f g F G d L R la n rb s Hf Hg WL WR DL DR NE Hn. rewrite (C38_inner_arrays S A f g L R la rb n s WL WR DL DR NE).
  set (h := fun p : list Z * list Z => total F d n (fun k => G (at_ d L (fst p ++ [k])) (at_ d R (k :: snd p)))).
  exists (mkArr (la ++ rb) (map h (list_prod (all_idx la) (all_idx rb)))). split.
  - assert (EM : forall l t, (forall p, In p l -> inb la (fst p) /\ inb rb (snd p)) -> mapE (fun p => inner_fold f g (combine (line L (zlen la) n (fst p)) (line R 0 n (snd p)))) l t = (Ok (map h l), t)).
    { induction l as [|p l IH]; intros t Hp; [reflexivity|]. cbn [mapE map]. unfold ebind at 1. destruct (Hp p (or_introl eq_refl)) as (HI & HJ).
      rewrite (pairs_eq d L R la n rb _ _ WL WR DL DR HI HJ), (inner_fold_pure f g F G d) by (try assumption; intros E; apply map_eq_nil in E; revert E; apply zseq_ne; exact Hn).
      unfold ebind. rewrite IH by (intros; apply Hp; right; assumption). rewrite map_map. reflexivity. }
    unfold ebind. rewrite EM; [reflexivity|]. intros [I J] Hp. apply in_prod_iff in Hp. split; apply all_idx_inb; tauto.
  - destruct WL as (_ & PL & _). destruct WR as (_ & PR & _). rewrite DL in PL. rewrite DR in PR. apply Forall_app in PL. destruct PL as (PL & _). inversion PR as [|? ? _ PR2]. subst.
    assert (W : zlen (map h (list_prod (all_idx la) (all_idx rb))) = size (la ++ rb)). { unfold zlen. rewrite map_length, prod_length, Nat2Z.inj_mul. fold (zlen (all_idx la)) (zlen (all_idx rb)). rewrite !zlen_all_idx, size_app by assumption. reflexivity. }
    split; [split; [split; [exact NE|split; [apply Forall_app; split; assumption|exact W]]|split; [reflexivity|reflexivity]]|].
    intros I J HI HJ. unfold elem. cbn [dims elems]. rewrite pos_app by (eapply Forall2_length; exact HI). rewrite znth_map.
    rewrite <- (zlen_all_idx rb PR2). rewrite (znth_list_prod _ _ _ _ I J (znth_all_idx _ _ HI) (znth_all_idx _ _ HJ)). reflexivity.
Qed.
Lemma product_unique {A} (F G : A -> A -> A) d la n rb L R P Q : product_of F G d la n rb L R P -> product_of F G d la n rb L R Q -> P = Q.
Proof.
  intros ((W1 & D1 & _) & E1) ((W2 & D2 & _) & E2). apply arr_ext; [exact W1|exact W2|congruence|]. intros idx H. rewrite D1 in H. apply inb_split in H. destruct H as (I & J & -> & HI & HJ). rewrite E1, E2 by assumption. reflexivity.
Qed.
Lemma total_ext {A} (F : A -> A -> A) d n t u : (forall k, 0 <= k < n -> t k = u k) -> total F d n t = total F d n u.
Proof. intros H. unfold total. f_equal. apply map_ext_in. intros k Hk. apply H. apply In_zseq in Hk. exact Hk. Qed.
Lemma product_at {A} (F G : A -> A -> A) d la n rb L R P I J : product_of F G d la n rb L R P -> inb la I -> inb rb J -> at_ d P (I ++ J) = total F d n (fun k => G (at_ d L (I ++ [k])) (at_ d R (k :: J))).
Proof. intros (_ & E) HI HJ. unfold at_ at 1. rewrite E by assumption. reflexivity. Qed.

(* (X f.g Y) f.g Z is X f.g (Y f.g Z) *)
Theorem C158_associative : forall (S A : Type) (f g : A -> A -> eff S A) (F G : A -> A -> A) (d : A) (X Y Z : arr A) la n mb m rc s,
  (forall x y t, f x y t = (Ok (F x y), t)) -> (forall x y t, g x y t = (Ok (G x y), t)) ->
  associative F -> commutative F -> associative G -> distributes G F ->
  wf X -> wf Y -> wf Z -> dims X = la ++ [n] -> dims Y = n :: mb ++ [m] -> dims Z = m :: rc -> la ++ mb ++ rc <> [] -> 0 < n -> 0 < m ->
  exists P Q R, inner f g (Arr X) (Arr Y) s = (Ok (Arr P), s) /\ inner f g (Arr P) (Arr Z) s = (Ok (Arr R), s) /\
    inner f g (Arr Y) (Arr Z) s = (Ok (Arr Q), s) /\ inner f g (Arr X) (Arr Q) s = (Ok (Arr R), s).
Proof.
  intros S A f g F G d X Y Z la n mb m rc s Hf Hg AF CF AG DG WX WY WZ DX DY DZ NE Hn Hm.
  assert (N1 : la ++ mb ++ [m] <> []) by (intros E; apply app_eq_nil in E; destruct E as (_ & E); apply app_eq_nil in E; destruct E as (_ & E); discriminate E).
  destruct (C158_elements S A f g F G d X Y la n (mb ++ [m]) s Hf Hg WX WY DX DY N1 Hn) as (P & EP & PP).
  destruct (C158_elements S A f g F G d Y Z (n :: mb) m rc s Hf Hg WY WZ DY DZ ltac:(discriminate) Hm) as (Q & EQ & PQ).
  destruct (proj1 PP) as (WP & DP & _). destruct (proj1 PQ) as (WQ & DQ & _). rewrite app_assoc in DP.
  destruct (C158_elements S A f g F G d P Z (la ++ mb) m rc s Hf Hg WP WZ DP DZ) as (R & ER & PR); [rewrite <- app_assoc; exact NE|exact Hm|].
  destruct (C158_elements S A f g F G d X Q la n (mb ++ rc) s Hf Hg WX WQ DX DQ NE Hn) as (R2 & ER2 & PR2).
  exists P, Q, R. split; [exact EP|]. split; [exact ER|]. split; [exact EQ|]. rewrite ER2. do 3 f_equal.
  destruct (proj1 PR) as (WR & DR & _). destruct (proj1 PR2) as (WR2 & DR2 & _). apply arr_ext; [exact WR2|exact WR|rewrite DR, DR2, app_assoc; reflexivity|].
  intros idx H. rewrite DR2 in H. apply inb_split in H. destruct H as (I & JK & -> & HI & HJK). apply inb_split in HJK. destruct HJK as (J & K & -> & HJ & HK).
  rewrite (proj2 PR2) by (try assumption; apply inb_app; assumption). rewrite app_assoc, (proj2 PR) by (try assumption; apply inb_app; assumption). f_equal.
  rewrite (total_ext F d n _ (fun k => total F d m (fun j => G (at_ d X (I ++ [k])) (G (at_ d Y (k :: J ++ [j])) (at_ d Z (j :: K)))))).
  2: { intros k Hk. change (k :: J ++ K) with ((k :: J) ++ K). rewrite (product_at F G d (n :: mb) m rc Y Z Q (k :: J) K PQ) by (try assumption; constructor; assumption).
       unfold total. rewrite (fold_mul_l F G d DG) by (apply zseq_ne; exact Hm). reflexivity. }
  rewrite (total_ext F d m _ (fun j => total F d n (fun k => G (at_ d X (I ++ [k])) (G (at_ d Y (k :: J ++ [j])) (at_ d Z (j :: K)))))).
  2: { intros j Hj. rewrite <- app_assoc. rewrite (product_at F G d la n (mb ++ [m]) X Y P I (J ++ [j]) PP) by (try assumption; (apply inb_app; [assumption|repeat constructor; lia])).
       unfold total. rewrite (fold_mul_r F G d DG) by (apply zseq_ne; exact Hn). f_equal. apply map_ext. intros k. apply AG. }
  unfold total. apply (fold_swap F d AF CF (fun k j => G (at_ d X (I ++ [k])) (G (at_ d Y (k :: J ++ [j])) (at_ d Z (j :: K))))); apply zseq_ne; assumption.
Qed.

(* the transpose of a product is the product of the transposes, the other way around *)
Lemma rev_dims_l {A} (X : arr A) la n : dims X = la ++ [n] -> rev (dims X) = n :: rev la.
Proof. intros ->. rewrite rev_app_distr. reflexivity. Qed.
Lemma inb_rev ds idx : inb ds idx -> inb (rev ds) (rev idx).
Proof. intros H. unfold inb in *. induction H as [|d i ds idx H _ IH]; [constructor|]. cbn [rev]. apply Forall2_app; [exact IH|repeat constructor; lia]. Qed.
Theorem C158_transpose : forall (S A : Type) (f g : A -> A -> eff S A) (F G : A -> A -> A) (d : A) (X Y : arr A) la n rb origin s,
  (forall x y t, f x y t = (Ok (F x y), t)) -> (forall x y t, g x y t = (Ok (G x y), t)) -> commutative G ->
  (origin = 0 \/ origin = 1) -> wf X -> wf Y -> dims X = la ++ [n] -> dims Y = n :: rb -> la ++ rb <> [] -> 0 < n ->
  exists P XT YT PT, inner f g (Arr X) (Arr Y) s = (Ok (Arr P), s) /\
    fst (transpose origin None (Arr X)) = Ok (Arr XT) /\ fst (transpose origin None (Arr Y)) = Ok (Arr YT) /\ fst (transpose origin None (Arr P)) = Ok (Arr PT) /\
    inner f g (Arr YT) (Arr XT) s = (Ok (Arr PT), s).
Proof.
  intros S A f g F G d X Y la n rb origin s Hf Hg CG HO WX WY DX DY NE Hn.
  destruct (C158_elements S A f g F G d X Y la n rb s Hf Hg WX WY DX DY NE Hn) as (P & EP & PP). destruct (proj1 PP) as (WP & DP & _).
  destruct (C08_monadic_transpose A origin X HO WX) as (XT & TX & WXT & DXT & EXT). destruct (C08_monadic_transpose A origin Y HO WY) as (YT & TY & WYT & DYT & EYT). destruct (C08_monadic_transpose A origin P HO WP) as (PT & TP & WPT & DPT & EPT).
  exists P, XT, YT, PT. do 4 (split; [assumption|]).
  rewrite DX in DXT, EXT. rewrite DY in DYT, EYT. rewrite DP in DPT, EPT. rewrite rev_app_distr in DXT, DPT, EXT, EPT. cbn [rev app] in DXT, EXT. cbn [rev] in DYT, EYT.
  destruct (C158_elements S A f g F G d YT XT (rev rb) n (rev la) s Hf Hg WYT WXT DYT DXT) as (Q & EQ & PQ); [rewrite <- rev_app_distr; intros E; apply (f_equal (@rev Z)) in E; rewrite rev_involutive in E; exact (NE E)|exact Hn|].
  rewrite EQ. do 3 f_equal. destruct (proj1 PQ) as (WQ & DQ & _). apply arr_ext; [exact WQ|exact WPT|congruence|]. intros idx H. rewrite DQ in H.
  destruct (EPT idx H) as (_ & ->). apply inb_split in H. destruct H as (J & I & -> & HJ & HI). rewrite (proj2 PQ) by assumption. rewrite rev_app_distr.
  pose proof (inb_rev _ _ HI) as HI'. pose proof (inb_rev _ _ HJ) as HJ'. rewrite rev_involutive in HI', HJ'. rewrite (proj2 PP) by assumption. f_equal. apply total_ext. intros k Hk.
  rewrite CG. f_equal; unfold at_.
  - rewrite (proj2 (EXT (k :: I) ltac:(constructor; assumption))). reflexivity.
  - rewrite (proj2 (EYT (J ++ [k]) ltac:(apply inb_app; [exact HJ|repeat constructor; lia]))). rewrite rev_app_distr. reflexivity.
Qed.

(* X f.g (Y f Z) is (X f.g Y) f (X f.g Z) *)
Definition elementwise {A} (F : A -> A -> A) (X Y Z : arr A) : Prop := wf Z /\ dims X = dims Z /\ dims Y = dims Z /\
  forall idx x y, inb (dims Z) idx -> elem X idx = Some x -> elem Y idx = Some y -> elem Z idx = Some (F x y).
Theorem C158_distributes : forall (S A : Type) (f g : A -> A -> eff S A) (F G : A -> A -> A) (d : A) (X Y Z YZ : arr A) la n rb s,
  (forall x y t, f x y t = (Ok (F x y), t)) -> (forall x y t, g x y t = (Ok (G x y), t)) -> associative F -> commutative F -> distributes G F ->
  wf X -> wf Y -> wf Z -> elementwise F Y Z YZ -> dims X = la ++ [n] -> dims Y = n :: rb -> la ++ rb <> [] -> 0 < n ->
  exists P Q R, inner f g (Arr X) (Arr Y) s = (Ok (Arr P), s) /\ inner f g (Arr X) (Arr Z) s = (Ok (Arr Q), s) /\ inner f g (Arr X) (Arr YZ) s = (Ok (Arr R), s) /\ elementwise F P Q R.
Proof.
  intros S A f g F G d X Y Z YZ la n rb s Hf Hg AF CF DG WX WY WZ (W & D1 & D2 & E) DX DY NE Hn. assert (DZ : dims Z = n :: rb) by congruence. assert (DYZ : dims YZ = n :: rb) by congruence.
  destruct (C158_elements S A f g F G d X Y la n rb s Hf Hg WX WY DX DY NE Hn) as (P & EP & PP). destruct (C158_elements S A f g F G d X Z la n rb s Hf Hg WX WZ DX DZ NE Hn) as (Q & EQ & PQ).
  destruct (C158_elements S A f g F G d X YZ la n rb s Hf Hg WX W DX DYZ NE Hn) as (R & ER & PR). exists P, Q, R. do 3 (split; [assumption|]).
  destruct (proj1 PP) as (WP & DP & _). destruct (proj1 PQ) as (WQ & DQ & _). destruct (proj1 PR) as (WR & DR & _). split; [exact WR|]. split; [congruence|]. split; [congruence|].
  intros idx x y H Hx Hy. rewrite DR in H. apply inb_split in H. destruct H as (I & J & -> & HI & HJ). rewrite (proj2 PP) in Hx by assumption. rewrite (proj2 PQ) in Hy by assumption. rewrite (proj2 PR) by assumption.
  injection Hx as <-. injection Hy as <-. f_equal. unfold total. rewrite <- (fold_pair F d AF CF) by (apply zseq_ne; exact Hn). apply (total_ext F d n). intros k Hk.
  assert (HK : inb (n :: rb) (k :: J)) by (constructor; assumption). rewrite <- (proj1 DG). f_equal. unfold at_ at 1.
  rewrite (E (k :: J) (at_ d Y (k :: J)) (at_ d Z (k :: J))); [reflexivity|rewrite DYZ; exact HK| |]; apply elem_at; try assumption; [rewrite DY|rewrite DZ]; exact HK.
Qed.

(* the product with a unit matrix on the left *)
Lemma total_unit {A} (F : A -> A -> A) d n t k zero : 0 <= k < n -> (forall j, 0 <= j < n -> j <> k -> t j = zero) -> (forall x, x = zero \/ x = t k -> F zero x = x) -> F (t k) zero = t k -> total F d n t = t k.
Proof.
  intros Hk Hz Z1 Z2. unfold total.
  assert (G0 : forall l, l <> [] -> (forall j, In j l -> 0 <= j < n /\ j <> k) -> fold1p F d (map t l) = zero).
  { induction l as [|j l IH]; intros N0 Hl; [contradiction|]. destruct (Hl j (or_introl eq_refl)) as (H1 & H2). destruct l as [|j2 l]; [cbn [map fold1p]; apply Hz; assumption|].
    change (map t (j :: j2 :: l)) with (t j :: map t (j2 :: l)). rewrite fold1p_cons by discriminate. rewrite IH by (try discriminate; intros; apply Hl; right; assumption). rewrite Hz by assumption. apply Z1. left. reflexivity. }
  assert (G : forall l, NoDup l -> In k l -> (forall j, In j l -> 0 <= j < n) -> fold1p F d (map t l) = t k).
  { induction l as [|j l IH]; intros ND Hin Hl; [destruct Hin|]. inversion ND as [|? ? Hj ND2]. subst. destruct l as [|j2 l]; [destruct Hin as [<-|[]]; reflexivity|].
    change (map t (j :: j2 :: l)) with (t j :: map t (j2 :: l)). rewrite fold1p_cons by discriminate. destruct Hin as [->|Hin].
    - rewrite G0; [exact Z2|discriminate|]. intros i Hi. split; [apply Hl; right; exact Hi|]. intros ->. exact (Hj Hi).
    - rewrite IH by (try assumption; intros; apply Hl; right; assumption). rewrite Hz; [apply Z1; right; reflexivity|apply Hl; left; reflexivity|]. intros ->. exact (Hj Hin). }
  apply G; [apply NoDup_zseq|apply In_zseq; exact Hk|]. intros j Hj. apply In_zseq in Hj. exact Hj.
Qed.
Definition unit_matrix {A} (zero one : A) (n : Z) (U : arr A) : Prop := wf U /\ dims U = [n; n] /\
  forall i j, 0 <= i < n -> 0 <= j < n -> elem U [i; j] = Some (if i =? j then one else zero).
Theorem C158_unit_left : forall (S A : Type) (f g : A -> A -> eff S A) (F G : A -> A -> A) (zero one : A) (U R : arr A) n rb s,
  (forall x y t, f x y t = (Ok (F x y), t)) -> (forall x y t, g x y t = (Ok (G x y), t)) ->
  F zero zero = zero -> (forall x, In x (elems R) -> F zero x = x /\ F x zero = x /\ G one x = x /\ G zero x = zero) ->
  unit_matrix zero one n U -> wf R -> dims R = n :: rb -> 0 < n -> inner f g (Arr U) (Arr R) s = (Ok (Arr R), s).
Proof.
  intros S A f g F G zero one U R n rb s Hf Hg Z0 ZX (WU & DU & EU) WR DR Hn.
  destruct (C158_elements S A f g F G zero U R [n] n rb s Hf Hg WU WR DU DR ltac:(discriminate) Hn) as (P & EP & PP). rewrite EP. do 3 f_equal. destruct (proj1 PP) as (WP & DP & _).
  apply arr_ext; [exact WP|exact WR|rewrite DP, DR; reflexivity|]. intros idx H. rewrite DP in H. apply (inb_split [n] rb) in H. destruct H as (I & J & -> & HI & HJ). rewrite (proj2 PP) by assumption.
  inversion HI as [|? i ? I' Hi HI' E1 E2]. subst. inversion HI'. subst. cbn [app] in *.
  assert (IN : forall k, 0 <= k < n -> In (at_ zero R (k :: J)) (elems R)). { intros k Hk. eapply znth_In. apply (elem_at zero R (k :: J) WR). rewrite DR. constructor; assumption. }
  rewrite (total_unit F zero n _ i zero Hi).
  - unfold at_ at 1. rewrite EU by assumption. rewrite Z.eqb_refl. destruct (ZX _ (IN i Hi)) as (_ & _ & -> & _). symmetry. apply elem_at; [exact WR|]. rewrite DR. constructor; assumption.
  - intros j Hj Nj. unfold at_ at 1. rewrite EU by assumption. replace (i =? j) with false by lia. apply (ZX _ (IN j Hj)).
  - intros x [->| ->]; [exact Z0|]. unfold at_ at 1 3. rewrite EU by assumption. rewrite Z.eqb_refl. destruct (ZX _ (IN i Hi)) as (A1 & A2 & A3 & _). rewrite A3. exact A1.
  - unfold at_ at 1 3. rewrite EU by assumption. rewrite Z.eqb_refl. destruct (ZX _ (IN i Hi)) as (A1 & A2 & A3 & _). rewrite A3. exact A2.
Qed.
Theorem C158_unit_right : forall (S A : Type) (f g : A -> A -> eff S A) (F G : A -> A -> A) (zero one : A) (L U : arr A) n la s,
  (forall x y t, f x y t = (Ok (F x y), t)) -> (forall x y t, g x y t = (Ok (G x y), t)) ->
  F zero zero = zero -> (forall x, In x (elems L) -> F zero x = x /\ F x zero = x /\ G x one = x /\ G x zero = zero) ->
  unit_matrix zero one n U -> wf L -> dims L = la ++ [n] -> 0 < n -> inner f g (Arr L) (Arr U) s = (Ok (Arr L), s).
Proof.
  intros S A f g F G zero one L U n la s Hf Hg Z0 ZX (WU & DU & EU) WL DL Hn.
  destruct (C158_elements S A f g F G zero L U la n [n] s Hf Hg WL WU DL DU) as (P & EP & PP); [intros E; apply app_eq_nil in E; destruct E as (_ & E); discriminate E|exact Hn|].
  rewrite EP. do 3 f_equal. destruct (proj1 PP) as (WP & DP & _).
  apply arr_ext; [exact WP|exact WL|congruence|]. intros idx H. rewrite DP in H. apply inb_split in H. destruct H as (I & J & -> & HI & HJ). rewrite (proj2 PP) by assumption.
  inversion HJ as [|? j ? J' Hj HJ' E1 E2]. subst. inversion HJ'. subst.
  assert (IB : forall k, 0 <= k < n -> inb (dims L) (I ++ [k])) by (intros k Hk; rewrite DL; apply inb_app; [exact HI|repeat constructor; lia]).
  assert (IN : forall k, 0 <= k < n -> In (at_ zero L (I ++ [k])) (elems L)) by (intros k Hk; eapply znth_In; apply (elem_at zero L (I ++ [k]) WL), IB, Hk).
  assert (EJ : G (at_ zero L (I ++ [j])) (at_ zero U [j; j]) = at_ zero L (I ++ [j])). { unfold at_ at 2. rewrite EU by assumption. rewrite Z.eqb_refl. apply (ZX _ (IN j Hj)). }
  rewrite (total_unit F zero n _ j zero Hj).
  - rewrite EJ. symmetry. apply elem_at; [exact WL|apply IB, Hj].
  - intros k Hk Nk. unfold at_ at 2. rewrite EU by assumption. replace (k =? j) with false by lia. apply (ZX _ (IN k Hk)).
  - intros x [->| ->]; [exact Z0|]. rewrite EJ. apply (ZX _ (IN j Hj)).
  - rewrite EJ. apply (ZX _ (IN j Hj)).
Qed.

(* 64-bit integers satisfy all of these laws, although + and × drop the higher bits *)
Lemma wrap_mod z : exists k, wrap z = z + k * 2 ^ 64.
Proof. unfold wrap. exists (- ((z + 2 ^ 63) / 2 ^ 64)). pose proof (Z.div_mod (z + 2 ^ 63) (2 ^ 64) ltac:(lia)) as H. lia. Qed.
Lemma wrap_eq a b k : a = b + k * 2 ^ 64 -> wrap a = wrap b.
Proof. intros ->. unfold wrap. replace (b + k * 2 ^ 64 + 2 ^ 63) with (b + 2 ^ 63 + k * 2 ^ 64) by lia. rewrite Z_mod_plus_full. reflexivity. Qed.
Lemma wrap_ring : associative int_add2 /\ commutative int_add2 /\ associative int_mul2 /\ commutative int_mul2 /\ distributes int_mul2 int_add2.
Proof.
  unfold associative, commutative, distributes, int_add2, int_mul2. split; [|split; [|split; [|split; [|split]]]]; intros; try (f_equal; lia).
  - destruct (wrap_mod (x + y)) as (k & ->). destruct (wrap_mod (y + z)) as (j & ->). apply (wrap_eq _ _ (k - j)). ring.
  - destruct (wrap_mod (x * y)) as (k & ->). destruct (wrap_mod (y * z)) as (j & ->). apply (wrap_eq _ _ (k * z - x * j)). ring.
  - destruct (wrap_mod (y + z)) as (k & ->). destruct (wrap_mod (x * y)) as (j & ->). destruct (wrap_mod (x * z)) as (i & ->). apply (wrap_eq _ _ (x * k - j - i)). ring.
  - destruct (wrap_mod (x + y)) as (k & ->). destruct (wrap_mod (x * z)) as (j & ->). destruct (wrap_mod (y * z)) as (i & ->). apply (wrap_eq _ _ (k * z - j - i)). ring.
Qed.
Definition iplus (x y : Z) : eff unit Z := eret (int_add2 x y).
Definition itimes (x y : Z) : eff unit Z := eret (int_mul2 x y).
Definition iequal (x y : Z) : eff unit Z := eret (if x =? y then 1 else 0).
(* A+.×B of matrices of 64-bit integers: associative, reversed by ⍉, and with unit (⍳n)∘.=⍳n *)
Theorem C158_integers : forall (X Y W : arr Z) k n m r s, wf X -> wf Y -> wf W -> dims X = [k; n] -> dims Y = [n; m] -> dims W = [m; r] -> 0 < n -> 0 < m ->
  (exists P Q R, inner iplus itimes (Arr X) (Arr Y) s = (Ok (Arr P), s) /\ inner iplus itimes (Arr P) (Arr W) s = (Ok (Arr R), s) /\
     inner iplus itimes (Arr Y) (Arr W) s = (Ok (Arr Q), s) /\ inner iplus itimes (Arr X) (Arr Q) s = (Ok (Arr R), s)) /\
  (exists P XT YT PT, inner iplus itimes (Arr X) (Arr Y) s = (Ok (Arr P), s) /\ fst (transpose 1 None (Arr X)) = Ok (Arr XT) /\ fst (transpose 1 None (Arr Y)) = Ok (Arr YT) /\
     fst (transpose 1 None (Arr P)) = Ok (Arr PT) /\ inner iplus itimes (Arr YT) (Arr XT) s = (Ok (Arr PT), s)) /\
  (Forall fits (elems X) -> exists v U, interval 1 n = Ok (Arr v) /\ outer iequal (Arr v) (Arr v) s = (Ok (Arr U), s) /\ inner iplus itimes (Arr X) (Arr U) s = (Ok (Arr X), s)) /\
  (Forall fits (elems Y) -> exists v U, interval 1 n = Ok (Arr v) /\ outer iequal (Arr v) (Arr v) s = (Ok (Arr U), s) /\ inner iplus itimes (Arr U) (Arr Y) s = (Ok (Arr Y), s)).
Proof.
  intros X Y W k n m r s WX WY WW DX DY DW Hn Hm. destruct wrap_ring as (AF & CF & AG & CG & DG).
  assert (HU : exists v U, interval 1 n = Ok (Arr v) /\ outer iequal (Arr v) (Arr v) s = (Ok (Arr U), s) /\ unit_matrix 0 1 n U).
  { destruct (C22_interval 1 n) as (_ & _ & HI). destruct (HI ltac:(lia)) as (v & EI & D & Z0 & He). assert (Wv : wf v) by (split; [rewrite D; discriminate|split; [rewrite D; repeat constructor; lia|rewrite D, Z0; cbn [size]; lia]]).
    destruct (C39_outer_elements unit _ iequal (fun x y => if x =? y then 1 else 0) v v s ltac:(reflexivity) Wv Wv) as (U & EU & WU & DU & HE). exists v, U. split; [exact EI|]. split; [exact EU|]. split; [exact WU|]. split; [rewrite DU, D; reflexivity|].
    intros i j Hi Hj. change [i; j] with ([i] ++ [j]). rewrite (HE [i] [j] (i + 1) (j + 1)).
    - f_equal. destruct (i =? j) eqn:E1; [replace (i + 1 =? j + 1) with true by lia|replace (i + 1 =? j + 1) with false by lia]; reflexivity.
    - rewrite D. repeat constructor; lia.
    - rewrite D. repeat constructor; lia.
    - unfold elem. rewrite D. cbn [pos size]. replace (i * 1 + 0) with i by lia. rewrite He by lia. f_equal. lia.
    - unfold elem. rewrite D. cbn [pos size]. replace (j * 1 + 0) with j by lia. rewrite He by lia. f_equal. lia. }
  split; [|split; [|split]].
  - apply (C158_associative unit _ iplus itimes int_add2 int_mul2 0 X Y W [k] n [] m [r] s); try assumption; try reflexivity. discriminate.
  - apply (C158_transpose unit _ iplus itimes int_add2 int_mul2 0 X Y [k] n [m] 1 s); try assumption; try reflexivity; [right; reflexivity|discriminate].
  - intros HF. destruct HU as (v & U & E1 & E2 & HU). exists v, U. split; [exact E1|]. split; [exact E2|]. apply (C158_unit_right unit _ iplus itimes int_add2 int_mul2 0 1 X U n [k] s); try assumption; try reflexivity.
    intros x Hx. rewrite Forall_forall in HF. specialize (HF x Hx). unfold int_add2, int_mul2. rewrite Z.add_0_r, Z.add_0_l, Z.mul_1_r, Z.mul_0_r, (wrap_id x HF). repeat split; reflexivity.
  - intros HF. destruct HU as (v & U & E1 & E2 & HU). exists v, U. split; [exact E1|]. split; [exact E2|]. apply (C158_unit_left unit _ iplus itimes int_add2 int_mul2 0 1 U Y n [m] s); try assumption; try reflexivity.
    intros x Hx. rewrite Forall_forall in HF. specialize (HF x Hx). unfold int_add2, int_mul2. rewrite Z.add_0_r, Z.add_0_l, Z.mul_1_l, Z.mul_0_l, (wrap_id x HF). repeat split; reflexivity.
Qed.
Example C158_example :
  let X := mkArr [2; 2] [1; 2; 3; 9223372036854775807] in let Y := mkArr [2; 2] [5; 6; 7; 8] in let W := mkArr [2; 1] [2; -1] in
  let P := mkArr [2; 2] [19; 22; -9223372036854775800; 10] in let Q := mkArr [2; 1] [4; 6] in let R := mkArr [2; 1] [16; 6] in
  inner iplus itimes (Arr X) (Arr Y) tt = (Ok (Arr P), tt) /\ inner iplus itimes (Arr P) (Arr W) tt = (Ok (Arr R), tt) /\
  inner iplus itimes (Arr Y) (Arr W) tt = (Ok (Arr Q), tt) /\ inner iplus itimes (Arr X) (Arr Q) tt = (Ok (Arr R), tt).
Proof. vm_compute. repeat split; reflexivity. Qed.

Print Assumptions C158_elements.
Print Assumptions C158_associative.
Print Assumptions C158_transpose.
Print Assumptions C158_distributes.
Print Assumptions C158_unit_left.
Print Assumptions C158_unit_right.
Print Assumptions C158_integers.
