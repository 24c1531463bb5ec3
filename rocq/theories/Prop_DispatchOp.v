(* Prop_DispatchOp.v -- C148: which derived function an operator makes of its operands. *)
From Coq Require Import String List ZArith Bool Lia.
From Verif Require Import Base M_Array M_Dispatch S_Dispatch P_Dispatch P_Dispatch6 P_Dispatch7.
Import ListNotations.
Open Scope Z_scope.

(* the operator sym with the operands LO and RO makes the derived function called name,
   which sees the operands LO' and RO'; or it makes none (an error) *)
Definition derives (sym : string) (LO : value) (RO : option value) (name : string) (LO' : value) (RO' : option value) : Prop :=
  exists h, firstOp (operatorsOf sym) LO RO = Ok (h, LO', RO') /\ oname h = name.
Definition derives_none (sym : string) (LO : value) (RO : option value) : Prop := firstOp (operatorsOf sym) LO RO = Err.
(* a function that is the primitive p *)
Definition is_primitive (p : string) (v : value) : Prop := v = Fun (Prim p).

Lemma fun_test : forall v, (a_function v /\ isFunction v = true) \/ (~ a_function v /\ isFunction v = false).
Proof. intros v. destruct v; try (right; split; [intros H; inversion H|reflexivity]). left. split; [constructor|reflexivity]. Qed.
Lemma prim_test : forall p v, (is_primitive p v /\ match v with Fun (Prim s) => String.eqb s p | _ => false end = true) \/ (~ is_primitive p v /\ match v with Fun (Prim s) => String.eqb s p | _ => false end = false).
Proof.
  intros p v. unfold is_primitive. destruct v as [| | | | | | |f | | |]; try (right; split; [discriminate|reflexivity]); try (right; split; [congruence|reflexivity]).
  all: try (destruct f as [s|t]; [|right; split; [congruence|reflexivity]]; destruct (String.eqb_spec s p) as [->|N]; [left|right]; split; congruence).
Qed.
Ltac done := eexists; split; reflexivity.

(* f/ f⌿ f\ f⍀ reduce and scan if f is a function; integers (numbers that are integers, in
   an array or not) replicate and expand; anything else is an error *)
Definition slashes : list (string * string * string) :=
  [("/", "reduceLast", "replicateLast"); ("⌿", "reduceFirst", "replicateFirst"); ("\", "scanLast", "expandLast"); ("⍀", "scanFirst", "expandFirst")]%string.
Theorem C148_slash : forall sym red rep LO RO, In (sym, red, rep) slashes ->
  (a_function LO -> derives sym LO RO red LO RO) /\
  (indices LO -> exists LO', derives sym LO RO rep LO' RO /\ as_integers LO LO') /\
  (~ a_function LO -> ~ indices LO -> derives_none sym LO RO).
Proof.
  intros sym red rep LO RO I. unfold derives, derives_none.
  assert (HH : exists e1 e2, operatorsOf sym = [mkO sym rep (MonadicOp (Some (ToIndexArray None))) e1; mkO sym red (MonadicOp (Some (Function None))) e2]).
  { cbn [In slashes] in I. repeat (destruct I as [I|I]; [injection I as <- <- <-; handlesOp; eexists; eexists; reflexivity|]); destruct I. }
  destruct HH as (e1 & e2 & ->). cbn [firstOp odomain MonadicOp]. pose proof (ToIndexArray_accepts LO) as AC. pose proof (ToIndexArray_gives LO) as GV.
  destruct (ToIndexArray_answer LO) as [NI|B IA|d xs IA NB]; cbn [obind snd fst].
  - unfold Function, test. split; [|split].
    + intros F. destruct (fun_test LO) as [[_ E]|[N _]]; [|contradiction]. rewrite E. cbn [propagate obind snd fst]. eexists. split; reflexivity.
    + intros H. contradiction.
    + intros NF _. destruct (fun_test LO) as [[F _]|[_ E]]; [contradiction|]. rewrite E. reflexivity.
  - split; [intros F; inversion F; subst; inversion B|]. split; [|intros _ N; contradiction]. intros _. eexists. split; [eexists; split; reflexivity|]. apply GV. reflexivity.
  - split; [intros F; inversion F as [f Ef]; subst LO; exfalso; apply (blank_fun f); exact IA|]. split; [|intros _ N; contradiction]. intros _. eexists. split; [eexists; split; reflexivity|]. apply GV. reflexivity.
Qed.
(* <¨ is for channels, any other f¨ applies the function f to each element *)
Theorem C148_each : forall LO RO,
  (is_primitive "<" LO -> derives "¨" LO RO "channelEach" LO RO) /\
  (a_function LO -> ~ is_primitive "<" LO -> derives "¨" LO RO "each" LO RO) /\
  (~ a_function LO -> derives_none "¨" LO RO).
Proof.
  intros LO RO. unfold derives, derives_none. handlesOp. cbn [firstOp odomain MonadicOp]. unfold IsPrimitive, Function, test.
  destruct (prim_test "<" LO) as [[P E]|[P E]]; rewrite E; cbn [propagate obind snd fst].
  - split; [intros _; done|]. split; [contradiction|]. intros N. exfalso. apply N. rewrite P. constructor.
  - split; [contradiction|]. destruct (fun_test LO) as [[F EF]|[F EF]]; rewrite EF; cbn [propagate obind snd fst]; (split; [intros; try contradiction; try done|intros; try contradiction; try reflexivity]).
Qed.
(* +.× is the scalar product, f.g of any other two functions the inner product (∘.g the outer: ∘ is a function) *)
Theorem C148_dot : forall LO RO,
  (is_primitive "+" LO -> is_primitive "×" RO -> derives "." LO (Some RO) "scalarproduct" LO (Some RO)) /\
  (a_function LO -> a_function RO -> ~ (is_primitive "+" LO /\ is_primitive "×" RO) -> derives "." LO (Some RO) "innerproduct" LO (Some RO)) /\
  (~ (a_function LO /\ a_function RO) -> derives_none "." LO (Some RO)).
Proof.
  intros LO RO. unfold derives, derives_none. handlesOp. cbn [firstOp odomain DyadicOp]. unfold IsPrimitive, Function, test.
  destruct (prim_test "+" LO) as [[P E]|[P E]]; rewrite E; cbn [propagate obind snd fst negb].
  - destruct (prim_test "×" RO) as [[Q E2]|[Q E2]]; rewrite E2; cbn [propagate obind snd fst negb].
    + split; [intros; done|]. split; [tauto|]. intros N. exfalso. apply N. rewrite P, Q. split; constructor.
    + split; [contradiction|]. assert (FL : a_function LO) by (rewrite P; constructor). destruct (fun_test LO) as [[_ EL]|[N _]]; [|contradiction]. rewrite EL. cbn [propagate obind snd fst negb].
      destruct (fun_test RO) as [[F EF]|[F EF]]; rewrite EF; cbn [propagate obind snd fst negb]; (split; [intros; try contradiction; done|intros; try tauto; reflexivity]).
  - split; [contradiction|]. destruct (fun_test LO) as [[FL EL]|[FL EL]]; rewrite EL; cbn [propagate obind snd fst negb]; [|split; [contradiction|reflexivity]].
    destruct (fun_test RO) as [[F EF]|[F EF]]; rewrite EF; cbn [propagate obind snd fst negb]; (split; [intros; try contradiction; done|intros; try tauto; reflexivity]).
Qed.
(* f⍤n and f⌺n: a function and integers *)
Theorem C148_rank : forall sym name LO g, In (sym, name) [("⍤", "rank"); ("⌺", "stencil")]%string ->
  (a_function LO -> indices g -> exists g', derives sym LO (Some g) name LO (Some g') /\ as_integers g g') /\
  (~ (a_function LO /\ indices g) -> derives_none sym LO (Some g)).
Proof.
  intros sym name LO g I. unfold derives, derives_none.
  assert (HH : exists e, operatorsOf sym = [mkO sym name (DyadicOp (Some (Some (Function None), Some (ToIndexArray None)))) e]).
  { cbn [In] in I. repeat (destruct I as [I|I]; [injection I as <- <-; handlesOp; eexists; reflexivity|]); destruct I. }
  destruct HH as (e & ->). cbn [firstOp odomain DyadicOp]. unfold Function, test. pose proof (ToIndexArray_gives g) as GV.
  destruct (fun_test LO) as [[F E]|[F E]]; rewrite E; cbn [propagate obind snd fst negb]; [|split; [contradiction|reflexivity]].
  destruct (ToIndexArray_answer g) as [NI|B IA|d xs IA NB]; cbn [obind snd fst negb].
  - split; [intros; contradiction|reflexivity].
  - split; [|tauto]. intros _ _. eexists. split; [done|]. apply GV. reflexivity.
  - split; [|tauto]. intros _ _. eexists. split; [done|]. apply GV. reflexivity.
Qed.
(* f⍨ and f⍣g need a function on the left; f∘g, f@g and f[a] take anything *)
Theorem C148_others : forall LO g,
  (a_function LO -> derives "⍨" LO None "commute" LO None /\ derives "⍣" LO (Some g) "power" LO (Some g)) /\
  (~ a_function LO -> derives_none "⍨" LO None /\ derives_none "⍣" LO (Some g)) /\
  derives "∘" LO (Some g) "compose" LO (Some g) /\ derives "@" LO (Some g) "at" LO (Some g) /\ derives "⍂" LO (Some g) "axis" LO (Some g).
Proof.
  intros LO g. unfold derives, derives_none. repeat handlesOp. cbn [firstOp odomain DyadicOp MonadicOp]. unfold Function, test.
  destruct (fun_test LO) as [[F E]|[F E]]; rewrite E; cbn [propagate obind snd fst negb].
  - split; [intros _; split; done|]. split; [contradiction|]. repeat split; done.
  - split; [contradiction|]. split; [split; reflexivity|]. repeat split; done.
Qed.
(* no other symbol is an operator (but ←) *)
Theorem C148_no_operator : forall sym LO RO, ~ In sym opSymbols -> derives_none sym LO RO.
Proof. intros sym LO RO N. unfold derives_none. rewrite (unknown_operator sym N). reflexivity. Qed.
Example C148_example : derives "/" (Num NInt (Some 2)) None "replicateLast" (Arr AInt [1] [Num NInt (Some 2)]) None /\
  derives "." (Fun (Prim "+")) (Some (Fun (Prim "×"))) "scalarproduct" (Fun (Prim "+")) (Some (Fun (Prim "×"))) /\ derives_none "/" (Str "a") None.
Proof. split; [|split]; [eexists; split; vm_compute; reflexivity..|vm_compute; reflexivity]. Qed.
Print Assumptions C148_slash. Print Assumptions C148_each. Print Assumptions C148_dot. Print Assumptions C148_rank. Print Assumptions C148_others. Print Assumptions C148_no_operator.
