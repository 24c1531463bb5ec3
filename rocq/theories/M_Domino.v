(* M_Domino.v -- model of matrix inverse and matrix divide: apl/primitives/domino.go.

   The numbers are abstract: the elementary functions that domino.go looks up
   (arith1("|"), arith2("×"), arith2("÷"), arith2("-"), arith2("<"), + for the conjugate) are
   parameters.  Only the division may fail.  A [][]apl.Value is a function of the row and the
   column; all indexes of the code are below n (the loops 0..n-1, i..n-1, i+1..n-1). *)
From Verif Require Import Base M_Array.
From Coq Require Import PeanoNat.

Definition mat (F : Type) := nat -> nat -> F.
Definition updm {F} (A : mat F) (i j : nat) (x : F) : mat F :=
  fun r c => if (r =? i)%nat && (c =? j)%nat then x else A r c.
Definition updv {X} (v : nat -> X) (i : nat) (x : X) : nat -> X := fun r => if (r =? i)%nat then x else v r.
(* v[i], v[j] = v[j], v[i] *)
Definition swap {X} (v : nat -> X) (i j : nat) : nat -> X := updv (updv v i (v j)) j (v i).
(* for k := i; k < n; k++ *)
Definition from_to (i n : nat) : list nat := seq i (n - i).
(* a loop whose body may return an error *)
Fixpoint loopM {S} (body : nat -> S -> outcome S) (l : list nat) (s : S) : outcome S :=
  match l with [] => Ok s | i :: l' => let* s := body i s in loopM body l' s end.

Section Domino.
  Context {F : Type} (zero one : F) (add mul sub : F -> F -> F) (fdiv : F -> F -> outcome F)
          (fabs conj : F -> F) (less : F -> F -> bool) (iszero : F -> bool).

  (* domino.go:166-182 the row with the largest absolute value in column i, from row i *)
  Definition pivot (n i : nat) (A : mat F) : F * nat :=
    fold_left (fun mx k => let absA := fabs (A k i) in if less (fst mx) absA then (absA, k) else mx) (from_to i n) (zero, i).
  (* domino.go:195-213 the elimination of row j *)
  Definition elim_row (n i j : nat) (A : mat F) : outcome (mat F) :=
    let* v := fdiv (A j i) (A i i) in
    let A := updm A j i v in
    Ok (fold_left (fun A k => updm A j k (sub (A j k) (mul (A j i) (A i k)))) (from_to (i + 1) n) A).
  (* domino.go:163-214 the step i *)
  Definition lu_step (n i : nat) (s : mat F * (nat -> nat)) : outcome (mat F * (nat -> nat)) :=
    let (A, P) := s in
    let (max, imax) := pivot n i A in
    if iszero max then Err                                        (* matrix is singular *)
    else
      let A := if (imax =? i)%nat then A else swap A i imax in
      let P := if (imax =? i)%nat then P else swap P i imax in
      let* A := loopM (elim_row n i) (from_to (i + 1) n) A in
      Ok (A, P).
  (* domino.go:148-216 lu *)
  Definition lu (n : nat) (A : mat F) : outcome (mat F * (nat -> nat)) :=
    loopM (lu_step n) (from_to 0 n) (A, fun i => i).

  (* domino.go:223-236 the lower triangle *)
  Definition forward (n : nat) (A : mat F) (b : nat -> F) (P : nat -> nat) (x : nat -> F) : nat -> F :=
    fold_left (fun x i =>
        fold_left (fun x k => updv x i (sub (x i) (mul (A i k) (x k)))) (from_to 0 i) (updv x i (b (P i))))
      (from_to 0 n) x.
  (* domino.go:237-254 the upper triangle, the rows from the last to the first; an error of the
     division ends luSolve, and x keeps the values that it has *)
  Fixpoint backward (n : nat) (A : mat F) (rows : list nat) (x : nat -> F) : nat -> F :=
    match rows with
    | [] => x
    | i :: rows' =>
        let x := fold_left (fun x k => updv x i (sub (x i) (mul (A i k) (x k)))) (from_to (i + 1) n) x in
        match fdiv (x i) (A i i) with
        | Ok v => backward n A rows' (updv x i v)
        | _ => x
        end
    end.
  (* domino.go:218-256 luSolve; x is not read before it is written.  Its error is ignored by
     domino2 *)
  Definition luSolve (n : nat) (A : mat F) (b : nat -> F) (P : nat -> nat) : nat -> F :=
    backward n A (rev (from_to 0 n)) (forward n A b P (fun _ => zero)).

  (* ar.At(i*n + k) *)
  Definition matrix_of (a : arr F) (cols : nat) : mat F := fun i k => nth (i * cols + k) (elems a) zero.
  Definition array_of (rows cols : nat) (f : nat -> nat -> F) : arr F :=
    mkArr [Z.of_nat rows; Z.of_nat cols] (flat_map (fun i => map (f i) (seq 0 cols)) (seq 0 rows)).
  (* +.× of two matrices (dot.go inner, from the last element to the first): C38 *)
  Fixpoint rsum (l : list F) : F := match l with [] => zero | [x] => x | x :: r => add x (rsum r) end.
  Definition mmul (rows inner cols : nat) (A B : mat F) : mat F :=
    fun i k => rsum (map (fun t => mul (A i t) (B t k)) (seq 0 inner)).

  (* domino.go:115-146 the decomposition and the columns of the right hand side *)
  Definition solve (n m : nat) (A B : mat F) : outcome (arr F) :=
    let* (A, P) := lu n A in
    Ok (array_of n m (fun i k => luSolve n A (fun r => B r k) P i)).
  (* array.go:139-192 array2("÷") with two arrays *)
  Definition divide_elements (L R : arr F) : outcome (arr F) :=
    let* l := mapM (fun i => let* x := zat (elems L) i in let* y := zat (elems R) i in fdiv x y) (zseq (zlen (elems L))) in
    Ok (mkArr (dims L) l).
  (* domino.go:57-146 domino2; the arrays are not EmptyArray *)
  Definition domino2 (L R : arr F) : outcome (arr F) :=
    if zlen (elems R) =? 1 then divide_elements L R
    else
      match dims R with
      | [r; c] =>
          if r <? c then Err
          else
            let* ls := match dims L with
                       | [l] => Ok (l, 1)
                       | [l; m] => Ok (l, m)
                       | _ => Err
                       end in
            if negb (fst ls =? r) then Err
            else
              let rows := Z.to_nat r in let cols := Z.to_nat c in let m := Z.to_nat (snd ls) in
              let A := matrix_of R cols in
              let B := matrix_of L m in
              if c <? r then
                let AH : mat F := fun i k => conj (A k i) in
                solve cols m (mmul cols rows cols AH A) (mmul cols rows m AH B)
              else solve rows m A B
      | _ => Err
      end.
  (* domino.go:28-55 domino *)
  Definition domino (R : arr F) : outcome (arr F) :=
    match dims R with
    | [n] => let* l := mapM (fdiv one) (elems R) in Ok (mkArr [n] l)
    | [r; c] =>
        if negb (r =? c) then Err
        else let n := Z.to_nat r in
             domino2 (array_of n n (fun i k => if (i =? k)%nat then one else zero)) R
    | [] => Panic    (* EmptyArray *)
    | _ => Err
    end.
End Domino.
