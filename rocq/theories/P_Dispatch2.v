(* The elementary functions, the logical functions, and the others, one symbol at
   a time. *)
From Coq Require Import String List ZArith Bool Lia.
From Verif Require Import Base M_Array P_Array M_Dispatch S_Dispatch P_Dispatch.
Import ListNotations.
Open Scope Z_scope.

(* the list of handlers of a given symbol, by computation of the registry only *)
Ltac registry t :=
  eval cbv beta iota zeta delta [handlesOf registered primitives ioHandlers flat_map scalar2Of elementaryOf booleanSymbols compareSymbols elementarySymbols app fold_left hsym String.eqb Ascii.eqb Bool.eqb rev] in t.
Ltac handles :=
  match goal with |- context [handlesOf (registered ?c ?io) ?s] =>
    let l := registry (handlesOf (registered c io) s) in
    let E := fresh "E" in
    assert (E : handlesOf (registered c io) s = l) by reflexivity; rewrite E; clear E
  end.

Definition dummy : handler := mkH "" "" (fun _ _ => Panic) (fun _ _ => Panic).
(* the handlers of an elementary function *)
Definition El (c : bool) (e : string) (n : nat) : handler := nth n (elementaryOf c e) dummy.
Lemma elementary_handles : forall c io e, In e elementarySymbols ->
  handlesOf (registered c io) e =
  (if String.eqb e "⌊" then [mkH "⌊" "roundTime" (Dyadic (Some (Split (Some (IsString None)) (Some (Or (IsTime None) (IsTimeArray None)))))) roundTime_entry] else []) ++
  (if (io && String.eqb e "!")%bool then [mkH "!" "exec2" (Dyadic (Some (Split (Some (ToStringArray None)) None))) exec_entry; mkH "!" "exec1" (Monadic (Some (ToStringArray None))) exec_entry] else []) ++
  rev (elementaryOf c e).
Proof.
  intros c io e I. cbn [In elementarySymbols] in I. destruct io; repeat (destruct I as [<-|I]; [handles; reflexivity|]); destruct I.
Qed.

Lemma elem1 : forall c e R, firstOf (rev (elementaryOf c e)) None R =
  Ok (El c e (match R with Chan => 3 | Dict | Table | Obj _ => 2 | Arr _ _ _ => 1 | _ => 0 end), None, R).
Proof. intros c e R. destruct R; reflexivity. Qed.

(* two arrays that are not served otherwise *)
Lemma elem2_arrays : forall c e kl ls xl kr rs xr, firstOf (rev (elementaryOf c e)) (Some (Arr kl ls xl)) (Arr kr rs xr) =
  match xl, xr with
  | [], _ => Ok (El c e 5, Some emptyArray, Arr kr rs xr)
  | _, [] => Ok (El c e 5, Some (Arr kl ls xl), emptyArray)
  | _, _ => if sameShape ls rs then Ok (El c e 5, Some (Arr kl ls xl), Arr kr rs xr)
            else match xl, xr with
                 | [x], _ => Ok (El c e 5, Some x, Arr kr rs xr)
                 | _, [y] => Ok (El c e 5, Some (Arr kl ls xl), y)
                 | _, _ => Err
                 end
  end.
Proof.
  intros. cbn [rev app elementaryOf firstOf hdom arrays arraysWithAxis]. cbn [Dyadic Split Any Both Or IsTable IsObject IsChannel test isTable isObject isChannel propagate obind snd fst negb].
  destruct xl as [|x [|x' xl]], xr as [|y [|y' xr]]; try reflexivity; cbn [zlen List.length];
  repeat match goal with |- context [Z.of_nat (S ?n) =? 0] => replace (Z.of_nat (S n) =? 0) with false by lia end; change (Z.of_nat 0 =? 0) with true; cbn iota; try reflexivity;
  destruct (sameShape ls rs); reflexivity.
Qed.
Lemma elem2_axis : forall c e l A r, firstOf (rev (elementaryOf c e)) (Some l) (AxisOf A r) =
  (if isObject l then Ok (El c e 7, Some l, AxisOf A r)
   else match ToIndexArray None A with
   | Ok (x, true) => Ok (El c e 6, Some (if isArray l then l else unified c [1] [l]), AxisOf x (if isArray r then r else unified c [1] [r]))
   | Ok (_, false) => Ok (El c e (if isArray l then 5 else 4), Some l, AxisOf A r)
   | Err => Err | Panic => Panic
   end).
Proof.
  intros. cbn [rev app elementaryOf firstOf hdom].
  assert (O : forall d, Dyadic (Some (Any (Or (IsTable None) (IsObject None)))) (Some l) (AxisOf A r) = d -> d = Ok (Some l, AxisOf A r, isObject l)) by (intros d <-; destruct l; reflexivity).
  rewrite (O _ eq_refl). clear O.
  assert (O : forall d, Dyadic (Some (Both (Or (IsTable None) (IsObject None)))) (Some l) (AxisOf A r) = d -> d = Ok (Some l, AxisOf A r, false)) by (intros d <-; destruct l; reflexivity).
  rewrite (O _ eq_refl). clear O.
  change (Dyadic (Some (Split None (Some (IsChannel None)))) (Some l) (AxisOf A r)) with (@Ok (option value * value * bool) (Some l, AxisOf A r, false)). cbn [obind].
  destruct (isObject l) eqn:EO; [reflexivity|]. unfold arraysWithAxis.
  assert (T : forall v, ToArray c None v = Ok ((if isArray v then v else unified c [1] [v]), true)) by (intros v; unfold ToArray, arrayTo; destruct (isArray v); reflexivity).
  rewrite !T. cbn [obind snd fst andb negb]. destruct (ToIndexArray None A) as [[x []]| |]; cbn [obind snd fst]; try reflexivity.
  destruct l; try discriminate EO; reflexivity.
Qed.
Definition plain (v : value) : bool := match v with Chan | Dict | Table | Obj _ | AxisOf _ _ => false | _ => true end.
Lemma elem2_other : forall c e l R, plain R = true -> isObject l = false -> (isArray l && isArray R)%bool = false ->
  firstOf (rev (elementaryOf c e)) (Some l) R = Ok (El c e (if isArray l || isArray R then 5 else 4), Some l, R).
Proof. intros c e l R P O A. destruct R; try discriminate P; destruct l; try discriminate O; try discriminate A; reflexivity. Qed.
Lemma elem2_object : forall c e l R, R <> Chan -> isObject l || isObject R = true ->
  firstOf (rev (elementaryOf c e)) (Some l) R = Ok (El c e (if isObject l && isObject R then 8 else 7), Some l, R).
Proof. intros c e l R N O. destruct R; try congruence; destruct l; try discriminate O; reflexivity. Qed.
Lemma elem2_channel : forall c e l, firstOf (rev (elementaryOf c e)) (Some l) Chan = Ok (El c e 9, Some l, Chan).
Proof. intros. reflexivity. Qed.

Lemma El_name : forall c e n, (n < 10)%nat -> hname (El c e n) = nth n ["arith1"; "array1"; "table1"; "channel1"; "arith2"; "array2"; "arrayAxis"; "tableAny"; "tableBoth"; "channel2"]%string ""%string.
Proof. intros c e n H. do 10 (destruct n as [|n]; [reflexivity|]). lia. Qed.
