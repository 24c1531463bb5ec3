(* Prop_Reduce.v -- properties C32..C37: reduce, scan, n-wise reduction,
   replicate/compress and expand (apl/operators/reduce.go, identity.go).
   The function operand is any effectful function f : A -> A -> eff S A; the
   state S is threaded through, so a statement fixes number and order of the
   calls as well. *)
From Coq Require Import String.
From Verif Require Import Base M_Array S_Array S_Structural P_Array M_Structural
  P_Reverse P_Transpose P_Take P_Comma Eff S_Reduce M_Reduce M_Identity P_Reduce P_Nwise P_Replicate.

(* ------------------------------------------------------------------ C32 *)
(* A vector of two or more elements: the right-to-left fold, with its effects
   in that order; an error of f is the error of the reduction. *)
Theorem C32_reduce_vector :
  forall (S A : Type) (f : A -> A -> eff S A) ident (l : list A) axis s,
  2 <= zlen l -> axis = -1 \/ axis = 0 ->
  reduct f ident (Arr (vec l)) axis s = emap Scal (fold1 f l) s.
Proof. exact @reduct_vector. Qed.
Print Assumptions C32_reduce_vector.

(* Higher rank, any axis: one fold per line, lines in row-major order. *)
Theorem C32_reduce_axis :
  forall (S A : Type) (f : A -> A -> eff S A) ident (a : arr A) axis k n s,
  wf a -> 2 <= zlen (dims a) -> k = norm_axis (zlen (dims a)) axis -> znth (dims a) k = Some n -> 2 <= n ->
  reduct f ident (Arr a) axis s =
  (let! l := mapE (fun j => fold1 f (line a k n j)) (all_idx (del k (dims a))) in
   eret (Arr (mkArr (del k (dims a)) l))) s.
Proof. exact @reduct_axis. Qed.
Print Assumptions C32_reduce_axis.

(* The same for a function without effects, element by element. *)
Theorem C32_reduce_axis_pure :
  forall (S A : Type) (f : A -> A -> eff S A) (g : A -> A -> A) d ident (a : arr A) axis k n s,
  (forall x y t, f x y t = (Ok (g x y), t)) ->
  wf a -> 2 <= zlen (dims a) -> k = norm_axis (zlen (dims a)) axis -> znth (dims a) k = Some n -> 2 <= n ->
  exists r, reduct f ident (Arr a) axis s = (Ok (Arr r), s) /\ wf r /\ dims r = del k (dims a) /\
    forall j, inb (del k (dims a)) j -> elem r j = Some (fold1p g d (line a k n j)).
Proof.
  intros S A f g d ident a axis k n s Hf Hw Hr Hk Hn Hn2.
  assert (Hkb : 0 <= k < zlen (dims a)) by (apply znth_some_range in Hn; exact Hn).
  destruct (wf_del_ne a k Hw Hr Hkb) as (Hne & Hnn).
  exists (mkArr (del k (dims a)) (map (fun j => fold1p g d (line a k n j)) (all_idx (del k (dims a))))).
  split; [|split; [|split]].
  - rewrite (reduct_axis f ident a axis k n s Hw Hr Hk Hn Hn2).
    assert (E : mapE (fun j => fold1 f (line a k n j)) (all_idx (del k (dims a))) s =
                (Ok (map (fun j => fold1p g d (line a k n j)) (all_idx (del k (dims a)))), s)).
    { rewrite (mapE_ext _ (fun j => eret (fold1p g d (line a k n j)))).
      - apply mapE_ok_pure. intros x s0 _. reflexivity.
      - intros x t Hx. apply fold1_pure; [exact Hf|].
        apply In_all_idx in Hx. destruct (line_ok a k n x Hw Hn Hx) as (Hl & _).
        intro E. rewrite E in Hl. cbn in Hl. lia. }
    unfold ebind. rewrite E. reflexivity.
  - apply wf_build; assumption.
  - reflexivity.
  - intros j Hj. apply (elem_build _ (fun j => fold1p g d (line a k n j))). exact Hj.
Qed.
Print Assumptions C32_reduce_axis_pure.

(* f is not called for a scalar, a one-element vector or an axis of length 1 *)
Theorem C32_reduce_single :
  forall (S A : Type) (f : A -> A -> eff S A) ident (x : A) axis s,
  reduct f ident (Scal x) axis s = (Ok (Scal x), s) /\
  reduct f ident (Arr (vec [x])) axis s = (Ok (Scal x), s).
Proof. intros. split; reflexivity. Qed.
Print Assumptions C32_reduce_single.
Theorem C32_reduce_axis_length_one :
  forall (S A : Type) (f : A -> A -> eff S A) ident (a : arr A) axis k s,
  wf a -> 2 <= zlen (dims a) -> k = norm_axis (zlen (dims a)) axis -> znth (dims a) k = Some 1 ->
  size (dims a) <> 0 ->
  exists r, reduct f ident (Arr a) axis s = (Ok (Arr r), s) /\ wf r /\ dims r = del k (dims a) /\
    forall j, inb (del k (dims a)) j -> elem r j = elem a (ins k 0 j).
Proof. exact @reduct_len1. Qed.
Print Assumptions C32_reduce_axis_length_one.
Theorem C32_reduce_axis_error :
  forall (S A : Type) (f : A -> A -> eff S A) ident (a : arr A) axis s,
  dims a <> [] -> dims a <> [1] ->
  ~ (0 <= norm_axis (zlen (dims a)) axis < zlen (dims a)) ->
  reduct f ident (Arr a) axis s = (Err, s).
Proof. intros. apply reduct_bad_axis; try assumption. lia. Qed.
Print Assumptions C32_reduce_axis_error.

(* tracing function: the state records the calls in order *)
Definition trace_sub (x y : Z) : eff (list (Z * Z)) Z := fun s => (Ok (x - y), s ++ [(x, y)]).
Example C32_example :
  reduct trace_sub None (Arr (vec [1;2;3])) (-1) [] = (Ok (Scal 2), [(2,3);(1,-1)]) /\
  reduct trace_sub None (Arr (mkArr [2;3] [1;2;3;4;5;6])) 0 [] = (Ok (Arr (vec [-3;-3;-3])), [(1,4);(2,5);(3,6)]) /\
  reduct (S:=unit) (fun x y => if y =? 3 then efail else eret (x + y)) None (Arr (vec [1;2;3])) 0 tt = (Err, tt).
Proof. repeat split; reflexivity. Qed.

(* ------------------------------------------------------------------ C33 *)
(* The table of identity items is right for these functions on the integers
   (on the truth values for the comparisons): i F x = x or x F i = x. *)
Definition truth (x : Z) : Prop := x = 0 \/ x = 1.
Definition b2z (b : bool) : Z := if b then 1 else 0.
Inductive scalar_fn : string -> (Z -> Prop) -> (Z -> Z -> Z) -> Prop :=
| fn_add : scalar_fn "+" (fun _ => True) Z.add
| fn_sub : scalar_fn "-" (fun _ => True) Z.sub
| fn_mul : scalar_fn "×" (fun _ => True) Z.mul
| fn_div : scalar_fn "÷" (fun _ => True) Z.div
| fn_pow : scalar_fn "*" (fun _ => True) Z.pow
| fn_mod : scalar_fn "|" (fun _ => True) (fun l r => if l =? 0 then r else Z.modulo r l)
| fn_gcd : scalar_fn "∨" (fun x => 0 <= x) Z.gcd
| fn_lcm : scalar_fn "∧" (fun x => 0 <= x) Z.lcm
| fn_lt : scalar_fn "<" truth (fun l r => b2z (l <? r))
| fn_le : scalar_fn "≤" truth (fun l r => b2z (l <=? r))
| fn_eq : scalar_fn "=" truth (fun l r => b2z (l =? r))
| fn_ne : scalar_fn "≠" truth (fun l r => b2z (negb (l =? r)))
| fn_ge : scalar_fn "≥" truth (fun l r => b2z (r <=? l))
| fn_gt : scalar_fn ">" truth (fun l r => b2z (r <? l)).
Theorem C33_identity_table :
  forall p dom op, scalar_fn p dom op ->
  exists i, identityItem p = Some (IInt i) /\
    ((forall x, dom x -> op i x = x) \/ (forall x, dom x -> op x i = x)).
Proof.
  intros p dom op H.
  assert (T : forall (P : Z -> Prop), P 0 -> P 1 -> forall x, truth x -> P x)
    by (intros P H0 H1 x [->| ->]; assumption).
  destruct H; eexists; (split; [reflexivity|]);
  first [ solve [left; intros x Hx; first [lia | apply Z.mul_1_l | reflexivity
                                          | (rewrite Z.gcd_0_l; lia) | (rewrite Z.lcm_1_l; lia)]]
        | solve [right; intros x Hx; first [lia | apply Z.div_1_r | apply Z.pow_1_r]]
        | solve [left; apply T; reflexivity] | solve [right; apply T; reflexivity] ].
Qed.
Print Assumptions C33_identity_table.
(* Finding: the items for ⌊ and ⌈ are exchanged.  [IMaxFloat] is the largest
   number, so it would be the identity of ⌊. *)
Definition ident_le (i : ident_val) (x : Z) : Prop :=   (* item is at most x *)
  match i with IInt n => n <= x | INegMaxFloat => True | IMaxFloat => False end.
Theorem C33_min_max_items_swapped_refuted :
  identityItem "⌊" = Some INegMaxFloat /\ identityItem "⌈" = Some IMaxFloat /\
  (* so ⌊ of the item of ⌊ and any x is the item, not x *)
  forall x, ident_le INegMaxFloat x /\ ~ ident_le IMaxFloat x.
Proof. repeat split; cbn; auto. Qed.
Print Assumptions C33_min_max_items_swapped_refuted.

Lemma size_zero_in ds : In 0 ds -> size ds = 0.
Proof.
  induction ds as [|d r IH]; intros H; [destruct H|]. destruct H as [->|H]; [reflexivity|].
  change (size (d :: r)) with (d * size r). rewrite IH by exact H. lia.
Qed.
(* the empty array *)
Theorem C33_reduce_empty :
  forall (S A : Type) (f : A -> A -> eff S A) axis s,
  (forall i, reduct f (Some i) Emp axis s = (Ok (Scal i), s)) /\
  reduct f None Emp axis s = (Err, s).
Proof. intros. split; reflexivity. Qed.
Print Assumptions C33_reduce_empty.
(* rank two or more and an axis without elements: all identities *)
Theorem C33_reduce_empty_axis :
  forall (S A : Type) (f : A -> A -> eff S A) (a : arr A) axis k s,
  wf a -> 2 <= zlen (dims a) -> k = norm_axis (zlen (dims a)) axis -> znth (dims a) k = Some 0 ->
  (forall i, exists r, reduct f (Some i) (Arr a) axis s = (Ok (Arr r), s) /\ wf r /\ dims r = del k (dims a) /\
    forall j, inb (del k (dims a)) j -> elem r j = Some i) /\
  reduct f None (Arr a) axis s = (Err, s).
Proof.
  intros S A f a axis k s Hw Hr Hk Hn. split; [intros i; exact (reduct_empty_axis f i a axis k s Hw Hr Hk Hn)|].
  assert (Hb : 0 <= k < zlen (dims a)) by (apply znth_some_range in Hn; exact Hn).
  unfold reduct. cbn [asArr]. destruct (dims a) as [|d0 [|d1 dr]] eqn:Ed; [cbn in Hr; zln; lia|zln; lia|].
  rewrite <- Ed in *.
  destruct (zlen (dims a) =? 0) eqn:E0; [lia|]. rewrite norm_axis_eq, <- Hk.
  destruct ((k <? 0) || (zlen (dims a) <=? k)) eqn:E1; [lia|].
  unfold ebind, elift. unfold zat. rewrite Hn. reflexivity.
Qed.
Print Assumptions C33_reduce_empty_axis.
(* Finding: a vector of shape [0] (as 0↑V or 0/V can give) yields an array
   without axes and elements instead of the identity. *)
Theorem C33_reduce_zero_vector_refuted :
  reduct (S:=unit) (fun x y => eret (x + y)) (Some 0) (Arr (mkArr [0] [])) (-1) tt =
  (Ok (Arr (mkArr [] [])), tt).
Proof. reflexivity. Qed.
Print Assumptions C33_reduce_zero_vector_refuted.
Example C33_example :
  reduct (S:=unit) (fun x y => eret (x + y)) (Some 0) (Arr (mkArr [3;0] [])) 1 tt = (Ok (Arr (vec [0;0;0])), tt).
Proof. reflexivity. Qed.

(* ------------------------------------------------------------------ C34 *)
Theorem C34_scan_vector :
  forall (S A : Type) (nil : A) (f : A -> A -> eff S A) (l : list A) axis s,
  l <> [] -> axis = -1 \/ axis = 0 ->
  scanfunc nil f (Arr (vec l)) axis s =
  (let! r := mapE (fold1 f) (prefixes l) in eret (Arr (vec r))) s.
Proof. exact @scanfunc_vector. Qed.
Print Assumptions C34_scan_vector.
Theorem C34_scan_axis :
  forall (S A : Type) (nil : A) (f : A -> A -> eff S A) (a : arr A) axis k n s,
  wf a -> 2 <= zlen (dims a) -> k = norm_axis (zlen (dims a)) axis -> znth (dims a) k = Some n -> 1 <= n ->
  match mapE (fun j => mapE (fold1 f) (prefixes (line a k n j))) (all_idx (del k (dims a))) s with
  | (Ok rows, s') => exists r, scanfunc nil f (Arr a) axis s = (Ok (Arr r), s') /\
      rows_at (dims a) k (all_idx (del k (dims a))) rows r
  | (Err, s') => scanfunc nil f (Arr a) axis s = (Err, s')
  | (Panic, s') => scanfunc nil f (Arr a) axis s = (Panic, s')
  end.
Proof. exact @scanfunc_axis. Qed.
Print Assumptions C34_scan_axis.
(* a function without effects: element i of each line is the reduction of the
   first i+1 elements of the line of the argument *)
Theorem C34_scan_axis_pure :
  forall (S A : Type) (nil : A) (f : A -> A -> eff S A) (g : A -> A -> A) d (a : arr A) axis k n s,
  (forall x y t, f x y t = (Ok (g x y), t)) ->
  wf a -> 2 <= zlen (dims a) -> k = norm_axis (zlen (dims a)) axis -> znth (dims a) k = Some n -> 1 <= n ->
  exists r, scanfunc nil f (Arr a) axis s = (Ok (Arr r), s) /\ wf r /\ dims r = dims a /\
    forall i j, inb (del k (dims a)) j -> 0 <= i < n ->
      elem r (ins k i j) = Some (fold1p g d (firstn (Z.to_nat (i + 1)) (line a k n j))).
Proof.
  intros S A nil f g d a axis k n s Hf Hw Hr Hk Hn Hn1.
  pose proof (scanfunc_axis nil f a axis k n s Hw Hr Hk Hn Hn1) as H.
  assert (E : mapE (fun j => mapE (fold1 f) (prefixes (line a k n j))) (all_idx (del k (dims a))) s =
    (Ok (map (fun j => map (fold1p g d) (prefixes (line a k n j))) (all_idx (del k (dims a)))), s)).
  { rewrite (mapE_ext _ (fun j => eret (map (fold1p g d) (prefixes (line a k n j))))).
    - apply mapE_ok_pure. intros x t _. reflexivity.
    - intros j t Hj. rewrite (mapE_ext _ (fun x => eret (fold1p g d x))).
      + apply mapE_ok_pure. intros x t' _. reflexivity.
      + intros x t' Hx. apply fold1_pure; [exact Hf|]. unfold prefixes in Hx. apply in_map_iff in Hx.
        destruct Hx as (i & <- & Hi). apply In_zseq in Hi.
        destruct (line a k n j) as [|y ys]; [cbn in Hi; zln; lia|].
        replace (Z.to_nat (i + 1)) with (Datatypes.S (Z.to_nat i)) by lia. discriminate. }
  rewrite E in H. destruct H as (r & Hr' & Hwr & Hdr & HF). exists r.
  split; [exact Hr'|]. split; [exact Hwr|]. split; [exact Hdr|]. intros i j Hj Hi.
  assert (Hin : In j (all_idx (del k (dims a)))) by (apply In_all_idx; exact Hj).
  apply In_nth_error in Hin. destruct Hin as (q & Hq).
  assert (G : forall (X Y : Type) (P : X -> Y -> Prop) (h : X -> Y) xs q x, Forall2 P xs (map h xs) -> nth_error xs q = Some x -> P x (h x)).
  { clear. intros X Y P h xs. induction xs as [|x0 xs IH]; intros q x HF Hq; [destruct q; discriminate|].
    inversion HF; subst. destruct q; [injection Hq as <-; assumption|]. eapply IH; [eassumption|exact Hq]. }
  specialize (G _ _ _ _ _ _ _ HF Hq). destruct G as (_ & G).
  destruct (line_ok a k n j Hw Hn Hj) as (Hl & _).
  rewrite G.
  - unfold prefixes. rewrite map_map. rewrite znth_map, znth_zseq by lia. reflexivity.
  - unfold prefixes. rewrite map_map. zla. lia.
Qed.
Print Assumptions C34_scan_axis_pure.
Theorem C34_scan_scalar :
  forall (S A : Type) (nil : A) (f : A -> A -> eff S A) x axis s,
  scanfunc nil f (Scal x) axis s = (Ok (Scal x), s) /\ scanfunc nil f Emp axis s = (Ok Emp, s).
Proof. intros. split; reflexivity. Qed.
Print Assumptions C34_scan_scalar.
(* Finding: an array without elements on the scanned axis panics. *)
Theorem C34_scan_empty_axis_refuted :
  scanfunc (S:=unit) 0 (fun x y => eret (x + y)) (Arr (mkArr [0] [])) (-1) tt = (Panic, tt) /\
  scanfunc (S:=unit) 0 (fun x y => eret (x + y)) (Arr (mkArr [2;0] [])) (-1) tt = (Panic, tt).
Proof. split; reflexivity. Qed.
Print Assumptions C34_scan_empty_axis_refuted.
Example C34_example :
  scanfunc (S:=unit) 0 (fun x y => eret (x - y)) (Arr (vec [1;2;3;4])) (-1) tt = (Ok (Arr (vec [1;-1;2;-2])), tt) /\
  scanfunc (S:=unit) 0 (fun x y => eret (x + y)) (Arr (mkArr [2;3] [1;2;3;4;5;6])) 0 tt = (Ok (Arr (mkArr [2;3] [1;2;3;5;7;9])), tt).
Proof. split; reflexivity. Qed.

(* ------------------------------------------------------------------ C35 *)
(* [g = None]: f is not + or ×, or the window is short: plain reductions. *)
Lemma nwise_row_pure :
  forall (S A : Type) (f : A -> A -> eff S A) (op : A -> A -> A) d g L (l : list A) s,
  (forall x y t, f x y t = (Ok (op x y), t)) ->
  (g = None \/ Z.abs L <= 3) -> 1 <= Z.abs L <= zlen l ->
  nwise_row f g L l s = (Ok (map (fold1p op d) (nwise_windows L l)), s).
Proof.
  intros S A f op d g L l s Hf Hg HL. rewrite (nwise_row_plain f g L l s Hg HL).
  assert (P : forall ws, (forall w, In w ws -> w <> []) ->
     forall t, mapE (fold1 f) ws t = (Ok (map (fold1p op d) ws), t)).
  { intros ws Hws t. rewrite (mapE_ext _ (fun w => eret (fold1p op d w))).
    - apply mapE_ok_pure. intros; reflexivity.
    - intros w t' Hw. apply fold1_pure; [exact Hf|apply Hws; exact Hw]. }
  assert (W : forall m, 1 <= m <= zlen l -> forall w, In w (windows m l) -> w <> []).
  { intros m Hm w Hw. rewrite windows_win in Hw. apply in_map_iff in Hw. destruct Hw as (i & <- & Hi).
    apply In_zseq in Hi. intro E. pose proof (zlen_win m i l ltac:(lia) ltac:(lia) ltac:(lia)) as Hz. rewrite E in Hz. cbn in Hz. lia. }
  unfold nwise_windows. destruct (L <? 0) eqn:EL.
  - unfold emap, ebind. rewrite P.
    + unfold eret. f_equal. f_equal. rewrite <- map_rev, <- map_rev, rev_involutive. reflexivity.
    + intros w Hw. apply in_map_iff in Hw. destruct Hw as (w' & <- & Hw'). apply in_rev in Hw'.
      intro E. apply (W (- L) ltac:(lia) w' Hw'). destruct w'; [reflexivity|].
      apply (f_equal (@length A)) in E. rewrite rev_length in E. discriminate.
  - rewrite P; [reflexivity|]. apply W. lia.
Qed.
Lemma nwise_row_abelian :
  forall (S A : Type) (f g : A -> A -> eff S A) (op sub : A -> A -> A) d L (l : list A) s,
  (forall x y t, f x y t = (Ok (op x y), t)) -> (forall x y t, g x y t = (Ok (sub x y), t)) ->
  (forall x y z, op x (op y z) = op (op x y) z) -> (forall x y, op x y = op y x) ->
  (forall x y, sub (op x y) x = y) -> 1 <= Z.abs L <= zlen l ->
  nwise_row f (Some g) L l s = (Ok (map (fold1p op d) (nwise_windows L l)), s).
Proof.
  intros S A f g op sub d L l s Hf Hg Ha Hc Hs HL.
  destruct (Z_le_gt_dec (Z.abs L) 3) as [H3|H3].
  { apply nwise_row_pure; try assumption. right; exact H3. }
  unfold nwise_row, nwise_windows. destruct (L <? 0) eqn:EL.
  - unfold emap, ebind. rewrite (nwise_out_fast f g op sub Hf Hg Ha Hc Hs d (- L) (rev l)) by (zla; lia).
    unfold eret. f_equal. f_equal. rewrite windows_rev by lia.
    rewrite <- map_rev, <- map_rev, rev_involutive. reflexivity.
  - apply (nwise_out_fast f g op sub Hf Hg Ha Hc Hs). lia.
Qed.

(* any rank, any axis, both signs: every line of the result lists the
   reductions of the windows of the line of the argument *)
Theorem C35_nwise :
  forall (S A : Type) (nil zero : A) (f : A -> A -> eff S A) (op : A -> A -> A) d ident g L (a : arr A) axis k n s,
  (forall x y t, f x y t = (Ok (op x y), t)) -> (g = None \/ Z.abs L <= 3) ->
  wf a -> (axis = -1 /\ k = zlen (dims a) - 1 \/ 0 <= axis /\ k = axis) -> znth (dims a) k = Some n ->
  1 <= Z.abs L <= n ->
  let js := all_idx (del k (dims a)) in
  exists r, nwise nil zero f ident g L (Arr a) axis s = (Ok (Arr r), s) /\
    rows_at (zupd (dims a) k (n - Z.abs L + 1)) k js
      (map (fun j => map (fold1p op d) (nwise_windows L (line a k n j))) js) r.
Proof.
  intros S A nil zero f op d ident g L a axis k n s Hf Hg Hw Hax Hn HL js.
  pose proof (nwise_axis nil zero f ident g L a axis k n s Hw Hax Hn HL) as H. cbv zeta in H. fold js in H.
  assert (E : mapE (fun j => nwise_row f g L (line a k n j)) js s =
     (Ok (map (fun j => map (fold1p op d) (nwise_windows L (line a k n j))) js), s)).
  { rewrite (mapE_ext _ (fun j => eret (map (fold1p op d) (nwise_windows L (line a k n j))))).
    - apply mapE_ok_pure. intros; reflexivity.
    - intros j t Hj. apply In_all_idx in Hj. destruct (line_ok a k n j Hw Hn Hj) as (Hl & _).
      apply nwise_row_pure; try assumption. rewrite Hl. exact HL. }
  rewrite E in H. exact H.
Qed.
Print Assumptions C35_nwise.
(* the moving-window path taken for + (g is -) and × (g is ÷) when |N| > 3 is
   right when g undoes f: (x f y) g x = y *)
Theorem C35_nwise_moving_window :
  forall (S A : Type) (nil zero : A) (f g : A -> A -> eff S A) (op sub : A -> A -> A) d ident L (a : arr A) axis k n s,
  (forall x y t, f x y t = (Ok (op x y), t)) -> (forall x y t, g x y t = (Ok (sub x y), t)) ->
  (forall x y z, op x (op y z) = op (op x y) z) -> (forall x y, op x y = op y x) ->
  (forall x y, sub (op x y) x = y) ->
  wf a -> (axis = -1 /\ k = zlen (dims a) - 1 \/ 0 <= axis /\ k = axis) -> znth (dims a) k = Some n ->
  1 <= Z.abs L <= n ->
  let js := all_idx (del k (dims a)) in
  exists r, nwise nil zero f ident (Some g) L (Arr a) axis s = (Ok (Arr r), s) /\
    rows_at (zupd (dims a) k (n - Z.abs L + 1)) k js
      (map (fun j => map (fold1p op d) (nwise_windows L (line a k n j))) js) r.
Proof.
  intros S A nil zero f g op sub d ident L a axis k n s Hf Hg Ha Hc Hs Hw Hax Hn HL js.
  pose proof (nwise_axis nil zero f ident (Some g) L a axis k n s Hw Hax Hn HL) as H. cbv zeta in H. fold js in H.
  assert (E : mapE (fun j => nwise_row f (Some g) L (line a k n j)) js s =
     (Ok (map (fun j => map (fold1p op d) (nwise_windows L (line a k n j))) js), s)).
  { rewrite (mapE_ext _ (fun j => eret (map (fold1p op d) (nwise_windows L (line a k n j))))).
    - apply mapE_ok_pure. intros; reflexivity.
    - intros j t Hj. apply In_all_idx in Hj. destruct (line_ok a k n j Hw Hn Hj) as (Hl & _).
      apply (nwise_row_abelian S A f g op sub d); try assumption. rewrite Hl. exact HL. }
  rewrite E in H. exact H.
Qed.
Print Assumptions C35_nwise_moving_window.
(* the effects of the plain path: windows from left to right (from right to
   left for a negative N), each folded from the right *)
Theorem C35_nwise_effects :
  forall (S A : Type) (nil zero : A) (f : A -> A -> eff S A) ident g L (l : list A) s,
  (g = None \/ L <= 3) -> 1 <= L <= zlen l ->
  nwise nil zero f ident g L (Arr (vec l)) (-1) s =
  (let! r := mapE (fold1 f) (windows L l) in eret (Arr (vec r))) s.
Proof.
  intros S A nil zero f ident g L l s Hg HL.
  assert (Hw : wf (vec l)) by apply wf_vec.
  assert (Hd : dims (vec l) = [zlen l]) by reflexivity.
  pose proof (nwise_axis nil zero f ident g L (vec l) (-1) 0 (zlen l) s Hw
     (or_introl (conj eq_refl eq_refl)) eq_refl ltac:(rewrite Z.abs_eq; lia)) as H.
  rewrite Hd in H. cbv zeta in H. change (all_idx (del 0 [zlen l])) with [@List.nil Z] in H.
  cbn [mapE] in H. rewrite line_vec in H. unfold ebind at 1 in H.
  rewrite nwise_row_plain in H by (try rewrite Z.abs_eq; lia || tauto).
  destruct (L <? 0) eqn:EL; [lia|]. unfold ebind.
  destruct (mapE (fold1 f) (windows L l) s) as [[row| |] s'] eqn:E; cbn [ebind eret] in H; try exact H.
  destruct H as (r & Hr & Hrows). rewrite Hr. unfold eret. f_equal. f_equal. f_equal.
  change (zupd [zlen l] 0 (zlen l - Z.abs L + 1)) with [zlen l - Z.abs L + 1] in Hrows.
  apply rows_at_vec in Hrows. exact Hrows.
Qed.
Print Assumptions C35_nwise_effects.
(* N one larger than the length: an empty axis; three or more larger: error *)
Theorem C35_nwise_too_long :
  forall (S A : Type) (nil zero : A) (f : A -> A -> eff S A) ident g L (a : arr A) k n s,
  wf a -> znth (dims a) k = Some n ->
  (Z.abs L = n + 1 -> nwise nil zero f ident g L (Arr a) k s = (Ok (Arr (mkArr (zupd (dims a) k 0) [])), s)) /\
  (n + 3 <= Z.abs L -> nwise nil zero f ident g L (Arr a) k s = (Err, s)).
Proof.
  intros S A nil zero f ident g L a k n s Hw Hn.
  assert (Hk : 0 <= k < zlen (dims a)) by (apply znth_some_range in Hn; exact Hn).
  assert (EN : (if L <? 0 then - L else L) = Z.abs L) by (destruct (L <? 0) eqn:E; lia).
  unfold nwise. rewrite EN. destruct (k =? -1) eqn:Ek; [lia|].
  destruct ((k <? 0) || (zlen (dims a) <=? k)) eqn:E1; [lia|].
  split; intros HL; unfold ebind at 1; unfold elift, zat; rewrite Hn.
  - destruct (2 <? Z.abs L - n) eqn:E2; [lia|].
    replace (n - (Z.abs L - 1)) with 0 by lia.
    assert (Hne : zupd (dims a) k 0 <> []).
    { intro E. apply (f_equal (@zlen Z)) in E. zlh E. lia. }
    assert (HP : Prod (zupd (dims a) k 0) = 0).
    { rewrite Prod_size by exact Hne. apply size_zero_in.
      apply (znth_In _ k). rewrite znth_zupd_same by exact Hk. reflexivity. }
    rewrite HP. reflexivity.
  - destruct (2 <? Z.abs L - n) eqn:E2; [reflexivity|lia].
Qed.
Print Assumptions C35_nwise_too_long.
Example C35_example :
  nwise (S:=unit) 0 0 (fun x y => eret (x + y)) (Some 0) (Some (fun x y => eret (x - y))) 4 (Arr (vec [1;2;3;4;5;6])) (-1) tt
   = (Ok (Arr (vec [10;14;18])), tt) /\
  nwise (S:=unit) 0 0 (fun x y => eret (x - y)) (Some 0) None (-2) (Arr (vec [1;4;9;16;25])) (-1) tt
   = (Ok (Arr (vec [3;5;7;9])), tt) /\
  nwise (S:=unit) 0 0 (fun x y => eret (x - y)) (Some 0) None 2 (Arr (mkArr [2;3] [1;4;9;16;25;36])) 1 tt
   = (Ok (Arr (mkArr [2;2] [-3;-5;-9;-11])), tt).
Proof. repeat split; reflexivity. Qed.
(* Finding: no function g makes the moving window right for × when a zero
   leaves the window (g is ÷ and 0÷0 would have to be 6 and 1). *)
Theorem C35_times_moving_window_refuted :
  forall (nil zero : Z) ident (g : Z -> Z -> Z),
  exists l, nwise (S:=unit) nil zero (fun x y => eret (x * y)) ident (Some (fun x y => eret (g x y))) 4 (Arr (vec l)) (-1) tt
   <> (Ok (Arr (vec (map (fold1p Z.mul 0) (windows 4 l)))), tt).
Proof.
  intros nil zero ident g. destruct (Z.eq_dec (g 0 0) 6) as [E|E].
  - exists [0;1;1;1;1]. intro H. vm_compute in H. rewrite E in H. discriminate.
  - exists [0;1;2;3;4]. intro H. cbv -[Z.mul] in H. injection H as H.
    change (g (0 * 1 * 2 * 3) 0) with (g 0 0) in H. lia.
Qed.
Print Assumptions C35_times_moving_window_refuted.
(* Finding: N = size+2 passes the check and makes an array of negative size. *)
Theorem C35_length_plus_two_refuted :
  nwise (S:=unit) 0 0 (fun x y => eret (x + y)) (Some 0) None 5 (Arr (vec [1;2;3])) (-1) tt = (Panic, tt).
Proof. reflexivity. Qed.
Print Assumptions C35_length_plus_two_refuted.

(* ------------------------------------------------------------------ C36 *)
Theorem C36_replicate :
  forall (A : Type) (zero : A) cs (a : arr A) axis k n,
  wf a -> k = norm_axis (zlen (dims a)) axis -> znth (dims a) k = Some n -> zlen cs = n ->
  exists r, Replicate zero (vec cs) (Arr a) axis = Ok (Arr r) /\
    rows_at (zupd (dims a) k (sumZ (map Z.abs cs))) k (all_idx (del k (dims a)))
      (map (fun j => replicated zero cs (line a k n j)) (all_idx (del k (dims a)))) r.
Proof. intros. rewrite <- zsum_sumZ. apply Replicate_ok; assumption. Qed.
Print Assumptions C36_replicate.
Theorem C36_replicate_vector :
  forall (A : Type) (zero : A) cs (l : list A) axis,
  axis = -1 \/ axis = 0 -> zlen cs = zlen l ->
  Replicate zero (vec cs) (Arr (vec l)) axis = Ok (Arr (vec (replicated zero cs l))).
Proof. exact @Replicate_vec. Qed.
Print Assumptions C36_replicate_vector.
Theorem C36_single_count :
  forall (A : Type) (zero : A) c (a : arr A) axis k n,
  wf a -> k = norm_axis (zlen (dims a)) axis -> znth (dims a) k = Some n -> 1 <= n ->
  exists r, Replicate zero (vec [c]) (Arr a) axis = Ok (Arr r) /\
    rows_at (zupd (dims a) k (n * Z.abs c)) k (all_idx (del k (dims a)))
      (map (fun j => replicated zero (repeat c (Z.to_nat n)) (line a k n j)) (all_idx (del k (dims a)))) r.
Proof. exact @Replicate_single. Qed.
Print Assumptions C36_single_count.
Theorem C36_extend_right :
  forall (A : Type) (zero : A) cs (a : arr A) axis k,
  wf a -> k = norm_axis (zlen (dims a)) axis -> znth (dims a) k = Some 1 -> 1 < zlen cs ->
  exists r, Replicate zero (vec cs) (Arr a) axis = Ok (Arr r) /\
    rows_at (zupd (dims a) k (sumZ (map Z.abs cs))) k (all_idx (del k (dims a)))
      (map (fun j => replicated zero cs (concat (repeat (line a k 1 j) (Datatypes.length cs)))) (all_idx (del k (dims a)))) r.
Proof. intros. rewrite <- zsum_sumZ. apply Replicate_extend; assumption. Qed.
Print Assumptions C36_extend_right.
Theorem C36_length_error :
  forall (A : Type) (zero : A) cs (a : arr A) axis k n,
  wf a -> k = norm_axis (zlen (dims a)) axis -> znth (dims a) k = Some n ->
  zlen cs <> n -> n <> 1 -> zlen cs <> 1 ->
  Replicate zero (vec cs) (Arr a) axis = Err.
Proof. intros. eapply Replicate_length_error; try eassumption. left; assumption. Qed.
Print Assumptions C36_length_error.
(* a boolean left argument selects *)
Theorem C36_compress :
  forall (A : Type) (zero : A) cs (l : list A), bools cs -> zlen cs = zlen l ->
  Replicate zero (vec cs) (Arr (vec l)) (-1) = Ok (Arr (vec (map snd (filter (fun p => fst p =? 1) (combine cs l))))).
Proof. intros A zero cs l Hb Hl. rewrite Replicate_vec by auto. rewrite replicated_bools by assumption. reflexivity. Qed.
Print Assumptions C36_compress.
(* Findings: the empty array as right argument and an axis that is too large
   panic; a single count does not extend over an axis without elements. *)
Theorem C36_edge_cases_refuted :
  Replicate 0 (vec [1;2]) Emp (-1) = Panic /\
  Replicate 0 (vec [1;2]) (Arr (vec [5;6])) 3 = Panic /\
  Replicate 0 (vec [2]) (Arr (mkArr [0] [])) (-1) = Err.
Proof. repeat split; reflexivity. Qed.
Print Assumptions C36_edge_cases_refuted.
Example C36_example :
  Replicate 0 (vec [2;-1;1]) (Arr (mkArr [2;3] [1;2;3;4;5;6])) (-1) = Ok (Arr (mkArr [2;4] [1;1;0;3;4;4;0;6])) /\
  replicated 0 [2;-1;1] [1;2;3] = [1;1;0;3].
Proof. split; reflexivity. Qed.

(* ------------------------------------------------------------------ C37 *)
Theorem C37_expand :
  forall (A : Type) (zero : A) cs (a : arr A) axis k n,
  wf a -> k = norm_axis (zlen (dims a)) axis -> znth (dims a) k = Some n -> (n <> 1 \/ zlen cs <= 1) ->
  positives cs = n -> cs <> [] ->
  exists r, Expand zero (Arr (vec cs)) (Arr a) axis = Ok (Arr r) /\
    rows_at (zupd (dims a) k (sumZ (map (fun c => Z.max 1 (Z.abs c)) cs))) k (all_idx (del k (dims a)))
      (map (fun j => expanded zero cs (line a k n j)) (all_idx (del k (dims a)))) r.
Proof. intros. rewrite <- expand_len_sumZ. apply Expand_ok; try assumption. lia. Qed.
Print Assumptions C37_expand.
Theorem C37_expand_vector :
  forall (A : Type) (zero : A) cs (l : list A) axis,
  axis = -1 \/ axis = 0 -> (zlen l <> 1 \/ zlen cs <= 1) -> positives cs = zlen l -> cs <> [] ->
  Expand zero (Arr (vec cs)) (Arr (vec l)) axis = Ok (Arr (vec (expanded zero cs l))).
Proof. intros. apply Expand_vec; try assumption. lia. Qed.
Print Assumptions C37_expand_vector.
(* compressing the expansion with the same mask gives the argument back, and
   the positions outside the mask are zero *)
Theorem C37_compress_expand :
  forall (A : Type) (zero : A) cs (l : list A),
  bools cs -> positives cs = zlen l -> cs <> [] -> (zlen l <> 1 \/ zlen cs <= 1) ->
  exists r, Expand zero (Arr (vec cs)) (Arr (vec l)) (-1) = Ok (Arr (vec r)) /\ zlen r = zlen cs /\
    Replicate zero (vec cs) (Arr (vec r)) (-1) = Ok (Arr (vec l)) /\
    forall i, znth cs i = Some 0 -> znth r i = Some zero.
Proof.
  intros A zero cs l Hb Hp Hne H1. exists (expanded zero cs l).
  split; [apply Expand_vec; try assumption; [left; reflexivity|lia]|].
  assert (HL : zlen (expanded zero cs l) = zlen cs).
  { rewrite zlen_expanded by lia. rewrite expand_len_sumZ. clear - Hb.
    induction Hb as [|c r Hc _ IH]; [reflexivity|]. cbn [map sumZ fold_right]. fold (sumZ (map (fun c => Z.max 1 (Z.abs c)) r)).
    rewrite IH. zln. lia. }
  split; [exact HL|]. split.
  - rewrite Replicate_vec by auto. rewrite expand_compress by assumption. reflexivity.
  - clear HL H1 Hne. revert l Hp. induction Hb as [|c r Hc Hb' IH]; intros l Hp i Hi.
    { unfold znth in Hi. destruct (i <? 0); [discriminate|]. destruct (Z.to_nat i); discriminate. }
    cbn [expanded]. rewrite positives_cons in Hp.
    assert (Hi0 : 0 <= i < zlen (c :: r)) by (apply znth_some_range in Hi; exact Hi).
    destruct (0 <? c) eqn:Ec.
    + assert (c = 1) by lia. subst c. destruct l as [|x l]; [zln; pose proof (zlen_nonneg (filter (fun c => 0 <? c) r)); unfold positives in Hp; lia|].
      change (Z.to_nat 1) with 1%nat. cbn [repeat app].
      destruct (Z.eq_dec i 0) as [->|Hi1]; [cbn in Hi; discriminate|].
      rewrite znth_cons_pos by lia; rewrite znth_cons_pos in Hi by lia. apply IH; [zln; lia|exact Hi].
    + assert (c = 0) by lia. subst c. cbn [Z.eqb app].
      destruct (Z.eq_dec i 0) as [->|Hi1]; [reflexivity|].
      rewrite znth_cons_pos by lia; rewrite znth_cons_pos in Hi by lia. apply IH; [lia|exact Hi].
Qed.
Print Assumptions C37_compress_expand.
(* Findings: a wrong number of ones is not rejected: too few silently drop
   elements, too many panic (or repeat a length-1 axis); an empty mask panics. *)
Theorem C37_count_mismatch_refuted :
  Expand 0 (Arr (vec [1;0])) (Arr (vec [7;8;9])) (-1) = Ok (Arr (vec [7;0])) /\
  Expand 0 (Arr (vec [1;1;1])) (Arr (vec [7;8])) (-1) = Panic /\
  Expand 0 (Arr (vec [1;1;1])) (Arr (mkArr [2;2] [1;2;3;4])) 0 = Panic /\
  Expand 0 (Arr (vec [1;1;1])) (Arr (mkArr [1;2] [1;2])) 0 = Ok (Arr (mkArr [3;2] [1;2;1;2;1;2])) /\
  Expand 0 (Arr (mkArr [0] [])) (Arr (vec [7;8])) (-1) = Panic.
Proof. repeat split; reflexivity. Qed.
Print Assumptions C37_count_mismatch_refuted.
Example C37_example :
  Expand 0 (Arr (vec [1;0;1])) (Arr (mkArr [2;2] [1;2;3;4])) 0 = Ok (Arr (mkArr [3;2] [1;2;0;0;3;4])) /\
  positives [1;0;1] = 2.
Proof. split; reflexivity. Qed.

(* ------------------------------------------------------------------ C86 *)
Lemma tack_skip {A} first inner : forall (pre : list A) n rest, 0 < n -> n + zlen pre < inner -> 
  (first = false -> n + zlen pre <= inner - 1) ->
  tack_loop first inner (pre ++ rest) n = tack_loop first inner rest (n + zlen pre).
Proof.
  induction pre as [|x pre IH]; intros n rest Hn Hl Hf; [rewrite zlen_nil, Z.add_0_r; reflexivity|].
  rewrite zlen_cons in *. pose proof (zlen_nonneg pre). cbn [app tack_loop]. replace (n + 1 =? inner) with false by lia.
  replace (if first then n =? 0 else n =? inner - 1) with false by (destruct first; lia).
  rewrite IH by lia. f_equal. lia.
Qed.
Lemma tack_block {A} (first : bool) inner : forall (blk rest : list A), 0 < inner -> zlen blk = inner ->
  exists x, znth blk (if first then 0 else inner - 1) = Some x /\ tack_loop first inner (blk ++ rest) 0 = x :: tack_loop first inner rest 0.
Proof.
  intros blk rest Hi Hb. destruct blk as [|x blk]; [rewrite zlen_nil in Hb; lia|]. rewrite zlen_cons in Hb. pose proof (zlen_nonneg blk).
  destruct blk as [|y blk'] eqn:EB.
  { rewrite zlen_nil in Hb. assert (inner = 1) by lia. subst inner. exists x. split; [destruct first; reflexivity|]. cbn. destruct first; reflexivity. }
  rewrite <- EB in *. assert (HL : 1 <= zlen blk) by (rewrite EB, zlen_cons; pose proof (zlen_nonneg blk'); lia). clear y blk' EB.
  (* the last element of the block *)
  destruct (@exists_last _ blk) as (pre & y & ->); [intros ->; rewrite zlen_nil in HL; lia|]. rewrite zlen_app, zlen_cons, zlen_nil in *.
  cbn [app tack_loop]. replace (0 + 1 =? inner) with false by lia. rewrite <- app_assoc. change (0 + 1) with 1. pose proof (zlen_nonneg pre).
  rewrite tack_skip by lia. cbn [app tack_loop]. replace (1 + zlen pre + 1 =? inner) with true by lia.
  destruct first.
  - exists x. split; [reflexivity|]. replace (0 =? 0) with true by lia. replace (1 + zlen pre =? 0) with false by lia. reflexivity.
  - exists y. replace (0 =? inner - 1) with false by lia. replace (1 + zlen pre =? inner - 1) with true by lia. split; [|reflexivity].
    rewrite znth_cons_pos by lia. rewrite znth_app_r by lia. replace (inner - 1 - 1 - zlen pre) with 0 by lia. reflexivity.
Qed.
Lemma tack_all {A} (first : bool) inner : 0 < inner -> forall (m : nat) (src : list A), zlen src = Z.of_nat m * inner ->
  zlen (tack_loop first inner src 0) = Z.of_nat m /\
  forall q, 0 <= q < Z.of_nat m -> znth (tack_loop first inner src 0) q = znth src (q * inner + (if first then 0 else inner - 1)).
Proof.
  intros Hi. induction m as [|m IH]; intros src Hs.
  { destruct src; [|rewrite zlen_cons in Hs; pose proof (zlen_nonneg src); lia]. split; [reflexivity|]. intros; lia. }
  set (blk := firstn (Z.to_nat inner) src). set (rest := skipn (Z.to_nat inner) src).
  assert (ES : src = blk ++ rest) by (symmetry; apply firstn_skipn).
  assert (Lb : zlen blk = inner) by (unfold blk, zlen in *; rewrite firstn_length; lia).
  assert (Lr : zlen rest = Z.of_nat m * inner) by (rewrite ES, zlen_app in Hs; lia).
  destruct (tack_block first inner blk rest Hi Lb) as (x & Hx & E). rewrite ES, E. clearbody blk rest. destruct (IH rest Lr) as [I1 I2].
  rewrite zlen_cons. split; [lia|]. intros q Hq. destruct (Z.eq_dec q 0) as [->|Hq0].
  - rewrite znth_cons_0. rewrite Z.mul_0_l, Z.add_0_l. rewrite znth_app_l by (destruct first; lia). symmetry. exact Hx.
  - rewrite znth_cons_pos by lia. rewrite I2 by lia. rewrite znth_app_r by (destruct first; nia). f_equal. rewrite Lb. lia.
Qed.
Lemma pos_last ds n j i : zlen ds = zlen j -> pos (ds ++ [n]) (j ++ [i]) = pos ds j * n + i.
Proof.
  revert j. induction ds as [|d ds IH]; intros [|x j] H.
  - cbn [app pos size]. lia.
  - rewrite zlen_cons, zlen_nil in H. pose proof (zlen_nonneg j). lia.
  - rewrite zlen_cons, zlen_nil in H. pose proof (zlen_nonneg ds). lia.
  -
  rewrite !zlen_cons in H. cbn [app pos]. rewrite IH by lia. rewrite size_app. cbn [size]. lia.
Qed.
(* ⊣/A and ⊢/A: the first and the last element along the last axis *)
Theorem C86_array :
  forall A (z : A) (first : bool) (ds : list Z) n xs, wf (mkArr (ds ++ [n]) xs) -> ds <> [] -> 0 < n ->
  exists r, reduceTack z first (Arr (mkArr (ds ++ [n]) xs)) = Ok (Arr r) /\
    is_array ds (fun j => elem (mkArr (ds ++ [n]) xs) (j ++ [if first then 0 else n - 1])) r.
Proof.
  intros A z first ds n xs (W1 & W2 & W3) Hd Hn. cbn [dims elems] in *. unfold reduceTack. cbn [dims elems].
  assert (Hz : 1 <= zlen ds) by (destruct ds; [congruence|rewrite zlen_cons; pose proof (zlen_nonneg ds); lia]).
  rewrite zlen_app, zlen_cons, zlen_nil. replace (zlen ds + (1 + 0) =? 0) with false by lia. replace (zlen ds + (1 + 0) =? 1) with false by lia.
  replace (zlen ds + (1 + 0) - 1) with (zlen ds) by lia.
  rewrite (proj2 (zat_ok (ds ++ [n]) (zlen ds) n)) by (rewrite znth_app_r by lia; rewrite Z.sub_diag; reflexivity). cbn [obind].
  rewrite app_length. cbn [length]. replace (length ds + 1 - 1)%nat with (length ds) by lia. rewrite firstn_app, firstn_all, Nat.sub_diag. cbn [firstn]. rewrite app_nil_r.
  apply Forall_app in W2 as [W2 _]. rewrite size_app in W3. cbn [size] in W3. assert (Sz : 0 <= size ds) by (apply size_nonneg; exact W2).
  assert (EP : Prod ds = size ds) by (destruct ds; [congruence|apply Prod_size; discriminate]).
  destruct (tack_all first n Hn (Z.to_nat (size ds)) xs) as [T1 T2]; [lia|].
  rewrite EP, T1. replace (size ds - Z.of_nat (Z.to_nat (size ds))) with 0 by lia. cbn [Z.to_nat repeat]. rewrite app_nil_r.
  eexists. split; [reflexivity|]. repeat split; cbn [dims elems]; [assumption|assumption|lia|].
  intros j Hj. unfold elem. cbn [dims elems]. pose proof (pos_range _ _ Hj). rewrite T2 by lia. rewrite pos_last; [reflexivity|]. apply Forall2_zlen in Hj. exact Hj.
Qed.
Theorem C86_vector :
  forall A (z x : A) (l : list A), reduceTack z true (Arr (vec (x :: l))) = Ok (Scal x) /\ reduceTack z false (Arr (vec (l ++ [x]))) = Ok (Scal x).
Proof.
  intros A z x l. pose proof (zlen_nonneg l). unfold reduceTack, vec. cbn [dims elems]. rewrite !zlen_app, !zlen_cons, !zlen_nil.
  change (1 + 0 =? 0) with false. change (1 + 0 =? 1) with true. cbv iota.
  split.
  - replace (zat [1 + zlen l] 0) with (Ok (1 + zlen l)) by reflexivity. cbn [obind]. replace (1 + zlen l <=? 0) with false by lia. reflexivity.
  - rewrite ?zlen_nil. replace (zat [zlen l + (1 + 0)] 0) with (Ok (zlen l + (1 + 0))) by reflexivity. cbn [obind]. replace (zlen l + (1 + 0) <=? 0) with false by lia.
    unfold At. cbn [elems]. match goal with |- context [zat (l ++ [x]) ?k] => replace k with (zlen l) by lia end. rewrite (proj2 (zat_ok (l ++ [x]) (zlen l) x)); [reflexivity|]. rewrite znth_app_r by lia. rewrite Z.sub_diag. reflexivity.
Qed.
(* a scalar is its own first and last element; an empty vector has none *)
Theorem C86_other : forall A (z x : A) first, reduceTack z first (Scal x) = Ok (Scal x) /\ reduceTack z first Emp = Ok Emp.
Proof. intros. split; reflexivity. Qed.
Example C86_example : wf (mkArr [2; 3] [1;2;3;4;5;6]) /\ reduceTack 0 true (Arr (mkArr [2; 3] [1;2;3;4;5;6])) = Ok (Arr (vec [1;4])) /\
  reduceTack 0 false (Arr (mkArr [2; 3] [1;2;3;4;5;6])) = Ok (Arr (vec [3;6])).
Proof. repeat split; cbn; try reflexivity; try discriminate. repeat constructor; lia. Qed.
Print Assumptions C86_array.
Print Assumptions C86_vector.
Print Assumptions C86_other.
