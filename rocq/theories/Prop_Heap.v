(* Prop_Heap.v -- C20, C21, C94, C95 and the sharing part of C19: assignment, sharing and copies. *)
From Verif Require Import Base Eff M_Heap S_Heap P_Heap P_Heap2 P_Heap3.
From Coq Require Import List ZArith Bool Lia.
Import ListNotations.

Section P.
  Context {A U K : Type} {BR : ByRef U} (conv : U -> A -> option A) (origin : Z) (K_dec : forall a b : K, {a = b} + {a <> b}).
  Local Notation hstate := (hstate A U K). Local Notation action := (action A U K).
  Local Notation exec := (exec conv origin K_dec). Local Notation history := (history conv origin K_dec).
  Implicit Types (s : hstate) (t : tree A U).

  (* C20, for values without arrays that are copied by reference (ComplexArray, Image): after any
     history, B←X succeeds and B is the value of X; after that, whatever is
     assigned to B or to parts of B, X (a variable, a constant, an element of another
     value) is what it was, and so is every other variable *)
  Theorem C20_copies_partial acts s B X t ls : history initial acts s -> reads (hp s) X t ls ->
    exists s1, exec (Assign B X) s = (Ok tt, s1) /\ value_of s1 B t /\
    forall acts' s', history s1 acts' s' -> (forall a, In a acts' -> (target a = Some B /\ forall k u, a <> Pass k u) \/ target a = None) ->
      reads (hp s') X t ls /\ forall k t', k <> B -> value_of s k t' -> value_of s' k t'.
  Proof.
    intros Hh RX. assert (HV : values s) by (eapply history_values; [exact Hh|apply initial_values]).
    destruct (exec (Assign B X) s) as [o s1] eqn:E.
    assert (HU : uses s (Assign B X)) by (exists t, ls; exact RX).
    destruct (step_plain conv origin K_dec s _ _ _ HU eq_refl E) as ((h1 & Eh) & Hs & -> & v & t1 & l1 & lR & Hv & R1 & Rv & Fv).
    destruct (proj1 (reads_det _) _ _ _ RX _ _ R1) as [-> ->]. exists s1. split; [reflexivity|]. split; [exists v, l1; auto|].
    intros acts' s' Hh' HT.
    assert (HV1 : values s1) by (eapply step_values; eassumption).
    assert (Hone : forall w tw lw, reads (hp s) w tw lw -> reads (hp s') w tw lw /\ forall k, k <> B -> vars s' k = vars s1 k).
    { intros w tw lw Rw. eapply (history_one conv origin K_dec); [exact Hh'|exact HV1|rewrite Eh; apply reads_ext; exact Rw| |exact HT].
      intros w' Hw'. rewrite Hv in Hw'. injection Hw' as <-. rewrite Eh in *. eapply apart_fresh; [exists tw, lw; exact Rw|exact Rv|exact Fv]. }
    split; [exact (proj1 (Hone _ _ _ RX))|]. intros k t' N (w & lw & Hw & Rw). exists w, lw.
    destruct (Hone _ _ _ Rw) as [R' Hk]. rewrite Hk by exact N. rewrite Hs by (cbn; congruence). auto.
  Qed.
  (* C20: and generally no variable changes by assignments to others, as long as no
     assignment is made to parts of an argument of a lambda that is running *)
  Theorem C20_independent_partial acts s acts' s' k t : history initial acts s -> respects (fun _ => False) acts ->
    ~ params_after (fun _ => False) acts k -> value_of s k t ->
    history s acts' s' -> respects (params_after (fun _ => False) acts) acts' -> (forall a, In a acts' -> target a <> Some k) ->
    value_of s' k t.
  Proof.
    intros Hh Hr Nk Hv Hh' Hr' HT. assert (HV : values s) by (eapply history_values; [exact Hh|apply initial_values]).
    eapply (history_keep conv origin K_dec); [exact Hh'|exact HV| |exact Hr'|exact Nk|exact HT|exact Hv].
    eapply history_separate; [exact Hh|apply initial_values|apply initial_separate|exact Hr].
  Qed.
  (* the cells of two variables that are not arguments are different *)
  Theorem C20_separate_partial acts s k k' v v' : history initial acts s -> respects (fun _ => False) acts -> k <> k' ->
    ~ params_after (fun _ => False) acts k -> ~ params_after (fun _ => False) acts k' ->
    vars s k = Some v -> vars s k' = Some v' -> ~ share (hp s) v v'.
  Proof.
    intros Hh Hr N Nk Nk' Hv Hv' (t & ls & t' & ls' & x & R & R' & H1 & H2).
    exact (history_separate conv origin K_dec _ _ _ Hh _ initial_values (initial_separate _) Hr k k' v v' N Nk Nk' Hv Hv' t ls t' ls' x R R' H1 H2).
  Qed.

  (* C21, without assignments to parts of ⍺ and ⍵: the call w of a lambda with the value of the
     variable k leaves it unchanged, unless its body assigns k *)
  Theorem C21_partial acts s k v t w body s' : history initial acts s -> respects (fun _ => False) acts ->
    ~ params_after (fun _ => False) acts k -> vars s k = Some v -> value_of s k t -> w <> k ->
    history s (Pass w v :: body ++ [Return w]) s' -> respects (params_after (fun _ => False) acts) (Pass w v :: body ++ [Return w]) ->
    (forall a, In a body -> target a <> Some k) -> value_of s' k t.
  Proof.
    intros Hh Hr Nk _ Hv Nw Hh' Hr' HT. eapply C20_independent_partial; try eassumption. intros a [<-|Ha]; [cbn; congruence|].
    apply in_app_or in Ha as [Ha|[<-|[]]]; [auto|cbn; congruence].
  Qed.

  (* C94: no history makes a value that contains itself: every variable can be read as a
     finite tree, and it can be copied *)
  Theorem C94_finite_partial acts s k v : history initial acts s -> vars s k = Some v ->
    exists t ls, reads (hp s) v t ls /\ exists v' h', Copy v (hp s) = (Ok v', hp s ++ h') /\ exists ls', reads (hp s ++ h') v' t ls' /\ forall x, In x ls -> ~ In x ls'.
  Proof.
    intros Hh Hv. destruct (history_values conv origin K_dec _ _ _ Hh initial_values _ _ Hv) as (t & ls & R). exists t, ls. split; [exact R|].
    destruct (Copy_ok _ _ _ _ R) as (h' & v' & ls' & E & R' & _ & F). exists v', h'. split; [exact E|]. exists ls'. split; [exact R'|].
    intros x H1 H2. apply F in H2. apply (proj1 (reads_lt _) _ _ _ R) in H1. lia.
  Qed.

  (* C95: a value that has been evaluated is not changed by what is evaluated later, unless an
     indexed assignment is made to a variable that shares a cell with it *)
  Theorem C95_evaluated_partial acts s v t ls acts' s' : history initial acts s -> reads (hp s) v t ls -> history s acts' s' ->
    (forall before a after s1 k w, acts' = before ++ a :: after -> history s before s1 -> updates a = Some k -> vars s1 k = Some w -> ~ share (hp s1) v w) ->
    reads (hp s') v t ls.
  Proof.
    intros Hh R Hh' HN. eapply (history_value conv origin K_dec); [exact Hh'|eapply history_values; [exact Hh|apply initial_values]|exact R|].
    intros before a after s1 k w Ea Hb Hk Hw t1 l1 t2 l2 x R1 R2 H1 H2. eapply HN; try eassumption. exists t1, l1, t2, l2, x. auto.
  Qed.
End P.

(* numbers, one type of uniform arrays; variables are numbers *)
#[global] Instance unit_copied : ByRef unit := fun _ => false.
Definition anyconv (u : unit) (a : Z) : option Z := Some a.
Definition ints (l : list Z) : cell Z unit := mkCell (HArr (Some tt) [zlen l]) (map HAtom l).
Definition mixed (l : list (hval Z)) : cell Z unit := mkCell (HArr None [zlen l]) l.
Definition tints (l : list Z) : tree Z unit := Node (HArr (Some tt) [zlen l]) (map Leaf l).
Local Notation hist := (history anyconv 1 Nat.eq_dec).
Local Notation run := (exec anyconv 1 Nat.eq_dec).
Fixpoint runs (acts : list (action Z unit nat)) (s : hstate Z unit nat) : hstate Z unit nat :=
  match acts with [] => s | a :: acts' => runs acts' (snd (run a s)) end.
Lemma reads_ints h l lz : nth_error h l = Some (ints lz) -> reads h (HRef l) (tints lz) [l].
Proof.
  intros H. unfold tints. change (HArr (Some tt) [zlen lz]) with (hdof (ints lz)). econstructor; [exact H|reflexivity|]. cbn [kids ints].
  clear H. induction lz as [|z lz IH]; cbn; [constructor|]. change (@nil nat) with (@nil nat ++ @nil nat). constructor; [constructor|exact IH].
Qed.
Lemma hist_step s a acts s' : uses s a -> hist (snd (run a s)) acts s' -> hist s (a :: acts) s'.
Proof. intros HU HH. destruct (run a s) as [o s1] eqn:E. econstructor; eassumption. Qed.

(* to compute what a value reads as *)
Fixpoint views (f : hval Z -> option (tree Z unit * list nat)) (vs : list (hval Z)) : option (list (tree Z unit) * list nat) :=
  match vs with
  | [] => Some ([], [])
  | v :: vs' => match f v, views f vs' with Some (t, ls), Some (ts, ls') => Some (t :: ts, ls ++ ls') | _, _ => None end
  end.
Fixpoint view (n : nat) (h : heap Z unit) (v : hval Z) : option (tree Z unit * list nat) :=
  match n with
  | O => None
  | S n' =>
      match v with
      | HAtom a => Some (Leaf a, [])
      | HRef l => match nth_error h l with
                  | None => None
                  | Some c => match views (view n' h) (kids c) with Some (ts, ls) => Some (Node (hdof c) ts, l :: ls) | None => None end
                  end
      end
  end.
Lemma view_reads n : forall h v t ls, view n h v = Some (t, ls) -> reads h v t ls.
Proof.
  induction n as [|n IH]; intros h v t ls E; [discriminate|]. destruct v as [a|l]; cbn [view] in E.
  - injection E as <- <-. constructor.
  - destruct (nth_error h l) as [c|] eqn:Hc; [|discriminate].
    destruct (views (view n h) (kids c)) as [[ts ls1]|] eqn:Ea; [|discriminate]. injection E as <- <-. econstructor; [exact Hc|destruct (hdof c) as [[u|]| |]; reflexivity|].
    revert ts ls1 Ea. induction (kids c) as [|v vs IHv]; intros ts ls1 Ea; cbn [views] in Ea.
    + injection Ea as <- <-. constructor.
    + destruct (view n h v) as [[tv lv]|] eqn:Ev; [|discriminate]. destruct (views (view n h) vs) as [[tvs lvs]|] eqn:Evs; [|discriminate]. injection Ea as <- <-.
      constructor; [apply IH, Ev|apply IHv; reflexivity].
Qed.
(* A←1 2 3 *)
Definition setup : list (action Z unit nat) := [Eval (ints [1; 2; 3]); Assign 0%nat (HRef 0)].
Lemma atoms (h : heap Z unit) l : Forall (is_value h) (map HAtom l).
Proof. induction l as [|z l IH]; cbn; [constructor|]. constructor; [exists (Leaf z), []; constructor|exact IH]. Qed.
Lemma setup_ok : hist initial setup (runs setup initial).
Proof.
  apply hist_step. { apply atoms. }
  apply hist_step. { exists (tints [1; 2; 3]), [0%nat]. apply reads_ints. reflexivity. }
  constructor.
Qed.
(* C20 is false for an array of complex numbers: ComplexArray.Copy returns its receiver
   (numbers/complexs.go:19-23), so B←A does not copy it, and B[1]←5 changes A.  There are two
   types of uniform arrays here, complex (true) and others *)
#[global] Instance complex_shared : ByRef bool := fun complex => complex.
Definition numconv (u : bool) (a : Z) : option Z := Some a.
Definition nums (complex : bool) (l : list Z) : cell Z bool := mkCell (HArr (Some complex) [zlen l]) (map HAtom l).
Theorem C20_complex_refuted (x y z : Z) : exists s1 s2 s3 l,
  (* A←x y, A is an array of complex numbers *)
  exec numconv 1 Nat.eq_dec (Eval (nums true [x; y])) initial = (Ok tt, s1) /\
  exec numconv 1 Nat.eq_dec (Assign 0%nat (HRef 0)) s1 = (Ok tt, s2) /\
  vars s2 0%nat = Some (HRef l) /\ nth_error (hp s2) l = Some (nums true [x; y]) /\
  (* B←A *)
  exec numconv 1 Nat.eq_dec (Assign 1%nat (HRef l)) s2 = (Ok tt, s3) /\
  (* B[1]←z *)
  exists s4, exec numconv 1 Nat.eq_dec (Update 1%nat None [1] [0] (HAtom z)) s3 = (Ok tt, s4) /\
  vars s4 0%nat = Some (HRef l) /\ nth_error (hp s4) l = Some (nums true [z; y]).
Proof. eexists _, _, _, _. repeat (split; [reflexivity|]). eexists. repeat (split; [reflexivity|]). reflexivity. Qed.
(* the same assignments to an array of other numbers *)
Example C20_other_numbers (x y z : Z) : exists s1 s2 s3 l,
  exec numconv 1 Nat.eq_dec (Eval (nums false [x; y])) initial = (Ok tt, s1) /\
  exec numconv 1 Nat.eq_dec (Assign 0%nat (HRef 0)) s1 = (Ok tt, s2) /\
  vars s2 0%nat = Some (HRef l) /\ nth_error (hp s2) l = Some (nums false [x; y]) /\
  exec numconv 1 Nat.eq_dec (Assign 1%nat (HRef l)) s2 = (Ok tt, s3) /\
  exists s4, exec numconv 1 Nat.eq_dec (Update 1%nat None [1] [0] (HAtom z)) s3 = (Ok tt, s4) /\
  vars s4 0%nat = Some (HRef l) /\ nth_error (hp s4) l = Some (nums false [x; y]).
Proof. eexists _, _, _, _. repeat (split; [reflexivity|]). eexists. repeat (split; [reflexivity|]). reflexivity. Qed.
(* C21 is false: {⍵[1]←5}A changes A *)
Theorem C21_refuted : exists acts s A w v body s', hist initial acts s /\ w <> A /\ vars s A = Some v /\
  value_of s A (tints [1; 2; 3]) /\ body = [Update w None [1] [0] (HAtom 5)] /\
  hist s (Pass w v :: body ++ [Return w]) s' /\ value_of s' A (tints [5; 2; 3]) /\ ~ value_of s' A (tints [1; 2; 3]).
Proof.
  set (s := runs setup initial). set (body := [Update 1%nat None [1] [0] (HAtom 5)] : list (action Z unit nat)).
  exists setup, s, 0%nat, 1%nat, (HRef 1), body, (runs (Pass 1%nat (HRef 1) :: body ++ [Return 1%nat]) s).
  split; [apply setup_ok|]. split; [discriminate|]. split; [reflexivity|].
  split; [exists (HRef 1), [1%nat]; split; [reflexivity|apply reads_ints; reflexivity]|]. split; [reflexivity|]. split.
  - apply hist_step. { exists (tints [1; 2; 3]), [1%nat]. apply reads_ints. reflexivity. }
    apply hist_step. { split; [exists (Leaf 5), []; constructor|exact Logic.I]. }
    apply hist_step; [exact Logic.I|]. constructor.
  - assert (R : reads (hp (runs (Pass 1%nat (HRef 1) :: body ++ [Return 1%nat]) s)) (HRef 1) (tints [5; 2; 3]) [1%nat]) by (apply reads_ints; reflexivity).
    split; [exists (HRef 1), [1%nat]; split; [reflexivity|exact R]|].
    intros (v & ls & Hv & R'). assert (v = HRef 1) as -> by (cbn in Hv; congruence). destruct (proj1 (reads_det _) _ _ _ R _ _ R') as [E _]. discriminate.
Qed.
(* C95 is false: (A[1]←5)+A adds to 5 2 3: the right operand has been evaluated to 1 2 3 *)
Theorem C95_refuted : exists acts s A v s', hist initial acts s /\ vars s A = Some v /\ reads (hp s) v (tints [1; 2; 3]) [1%nat] /\
  hist s [Update A None [1] [0] (HAtom 5)] s' /\ reads (hp s') v (tints [5; 2; 3]) [1%nat].
Proof.
  set (s := runs setup initial). exists setup, s, 0%nat, (HRef 1), (runs [Update 0%nat None [1] [0] (HAtom 5)] s).
  split; [apply setup_ok|]. split; [reflexivity|]. split; [apply reads_ints; reflexivity|]. split; [|apply reads_ints; reflexivity].
  apply hist_step. { split; [exists (Leaf 5), []; constructor|exact Logic.I]. } constructor.
Qed.
(* C19 is false if the right argument shares cells with the array: A[3 2 1]←A *)
Theorem C19_alias_refuted : exists acts s A v s', hist initial acts s /\ vars s A = Some v /\ value_of s A (tints [1; 2; 3]) /\
  hist s [Update A None [3] [2; 1; 0] v] s' /\ value_of s' A (tints [1; 2; 1]) /\ ~ value_of s' A (tints [3; 2; 1]).
Proof.
  set (s := runs setup initial). set (s' := runs [Update 0%nat None [3] [2; 1; 0] (HRef 1)] s). exists setup, s, 0%nat, (HRef 1), s'.
  split; [apply setup_ok|]. split; [reflexivity|]. split; [exists (HRef 1), [1%nat]; split; [reflexivity|apply reads_ints; reflexivity]|]. split.
  - apply hist_step. { split; [exists (tints [1; 2; 3]), [1%nat]; apply reads_ints; reflexivity|exact Logic.I]. } constructor.
  - assert (R : reads (hp s') (HRef 2) (tints [1; 2; 1]) [2%nat]) by (apply reads_ints; reflexivity).
    split; [exists (HRef 2), [2%nat]; split; [reflexivity|exact R]|].
    intros (v & ls & Hv & R'). assert (E2 : vars s' 0%nat = Some (HRef 2)) by (vm_compute; reflexivity). assert (v = HRef 2) as -> by congruence. destruct (proj1 (reads_det _) _ _ _ R _ _ R') as [E _]. discriminate.
Qed.
(* C94 is false for a function that returns a variable: A←(1;2), A[1]{A}←0 makes A contain
   itself, and the copy that is stored (assign.go:107) does not end *)
Theorem C94_refuted : exists (acts : list (action Z unit nat)) s A v (f : mfun Z unit), hist initial acts s /\ vars s A = Some v /\
  (forall x y, f x y = eret v) /\ fst (run (Update A (Some f) [1] [0] (HAtom 0)) s) = Panic /\
  forall t ls, ~ reads (hp (snd (run (Update A (Some f) [1] [0] (HAtom 0)) s))) v t ls.
Proof.
  set (acts := [Eval (mixed [HAtom 1; HAtom 2]); Assign 0%nat (HRef 0)] : list (action Z unit nat)).
  exists acts, (runs acts initial), 0%nat, (HRef 1), (fun _ _ => eret (HRef 1)). split.
  - apply hist_step. { exact (atoms _ [1; 2]). }
    apply hist_step; [|constructor]. exists (Node (HArr None [2]) [Leaf 1; Leaf 2]), [0%nat].
    change (HArr None [2]) with (hdof (mixed [HAtom 1; HAtom 2])). change [0%nat] with (0%nat :: [] ++ [] ++ @nil nat).
    econstructor; [reflexivity|reflexivity|]. repeat constructor.
  - split; [reflexivity|]. split; [reflexivity|]. split; [vm_compute; reflexivity|].
    set (h := hp _). assert (E : nth_error h 1 = Some (mixed [HRef 1; HAtom 2])) by (vm_compute; reflexivity).
    clearbody h. intros t ls R. inversion R as [|l c ts ls0 Hc _ Ha]; subst. assert (c = mixed [HRef 1; HAtom 2]) as -> by congruence.
    pose proof (reads_acyclic _ _ _ _ _ E Ha) as N. inversion Ha as [|v t1 l1 vs ts1 l2 R1 Ra]; subst. inversion R1; subst. apply N. left. reflexivity.
Qed.
(* the theorems say something: A is a list of an array and a list, B a copy; a part of a part of B
   is assigned, then a part of B; A stays *)
Definition nest : list (action Z unit nat) :=
  [Eval (ints [1; 2]); Eval (mkCell HLst [HAtom 7; HAtom 8]); Eval (mkCell HLst [HRef 0; HRef 1]); Assign 0%nat (HRef 2); Assign 1%nat (HRef 5)].
Example C20_example :
  let s := runs nest initial in let s' := runs [Update 1%nat None [2] [1; 0] (HAtom 9); Update 1%nat None [1] [0] (HAtom 5)] s in
  vars s 0%nat = Some (HRef 5) /\ vars s 1%nat = Some (HRef 8) /\
  reads (hp s) (HRef 8) (Node HLst [tints [1; 2]; Node HLst [Leaf 7; Leaf 8]]) [8; 6; 7]%nat /\
  reads (hp s') (HRef 5) (Node HLst [tints [1; 2]; Node HLst [Leaf 7; Leaf 8]]) [5; 3; 4]%nat /\
  reads (hp s') (HRef 8) (Node HLst [Leaf 5; Node HLst [Leaf 9; Leaf 8]]) [8; 7]%nat.
Proof. split; [reflexivity|]. split; [reflexivity|]. repeat split; apply (view_reads 5%nat); vm_compute; reflexivity. Qed.
Print Assumptions C20_copies_partial. Print Assumptions C20_independent_partial. Print Assumptions C20_separate_partial. Print Assumptions C21_partial.
Print Assumptions C20_complex_refuted.
Print Assumptions C21_refuted. Print Assumptions C94_finite_partial. Print Assumptions C94_refuted. Print Assumptions C95_evaluated_partial.
Print Assumptions C95_refuted. Print Assumptions C19_alias_refuted.
