(* Prop_Heap2.v -- C101: assignment in place, with shared cells, computes what the assignment of
   values means. *)
From Verif Require Import Base Eff M_Heap S_Heap P_Heap P_Heap2 S_HeapUpdate P_Heap4 P_Heap5 P_Heap6 Prop_Heap.
From Coq Require Import List ZArith Bool Lia.
Import ListNotations.

Section P.
  Context {A U K : Type} {BR : ByRef U} (conv : U -> A -> option A) (origin : Z) (K_dec : forall a b : K, {a = b} + {a <> b}).
  Local Notation hstate := (hstate A U K). Local Notation action := (action A U K). Local Notation tree := (tree A U).
  Local Notation exec := (exec conv origin K_dec). Local Notation meaning := (meaning conv origin K_dec). Local Notation meanings := (meanings conv origin K_dec).
  Local Notation executes := (executes conv origin K_dec). Local Notation update := (update conv origin).
  Implicit Types (s : hstate) (t : tree).

  (* C101, for values without arrays that are copied by reference (ComplexArray, Image):
     K[..]←R and K[..]f←R store the updated value, if there is one, and fail otherwise *)
  Theorem C101_update_partial s k w t ls f g ids ds R tr lr : vars s k = Some w -> reads (hp s) w t ls -> NoDup ls ->
    reads (hp s) R tr lr -> (forall x, In x lr -> ~ In x ls) -> modifies f g ->
    match update g t ids ds tr with
    | Some t' => exists s', exec (Update k f ids ds R) s = (Ok tt, s') /\ value_of s' k t' /\
        (forall v tv lv, reads (hp s) v tv lv -> (forall x, In x lv -> ~ In x ls) -> reads (hp s') v tv lv)
    | None => exists s', exec (Update k f ids ds R) s = (Err, s')
    end.
  Proof.
    intros Hw Rw ND Rr Dis Hfg. pose proof (update_ok conv origin f g Hfg K_dec s k w t ls ids ds R tr lr Hw Rw ND Rr Dis) as G.
    unfold updated in G. destruct (update g t ids ds tr) as [t'|]; [|exact G]. destruct G as (s' & v' & ls' & E & Hv & R' & _ & _ & S & _).
    exists s'. split; [exact E|]. split; [exists v', ls'; auto|]. intros v tv lv Rv D. eapply same_reads; eassumption.
  Qed.

  (* every variable has its value, in cells of its own *)
  Definition represents s (sg : store (A := A) (U := U)) (C : K -> list nat) : Prop :=
    (forall k, match sg k, vars s k with Some t, Some v => reads (hp s) v t (C k) /\ NoDup (C k) | None, None => C k = [] | _, _ => False end) /\
    (forall k k' x, k <> k' -> In x (C k) -> ~ In x (C k')).
  Lemma represents_values s sg C : represents s sg C -> forall k t, value_of s k t <-> sg k = Some t.
  Proof.
    intros [H _] k t. specialize (H k). split.
    - intros (v & ls & Hv & R). rewrite Hv in H. destruct (sg k) as [t'|]; [|contradiction]. destruct H as [H _]. f_equal. exact (proj1 (proj1 (reads_det _) _ _ _ R _ _ H)).
    - intros E. rewrite E in H. destruct (vars s k) as [v|] eqn:Hv; [|contradiction]. exists v, (C k). tauto.
  Qed.
  Lemma represents_lt s sg C k x : represents s sg C -> In x (C k) -> (x < length (hp s))%nat.
  Proof.
    intros [H _] Hx. specialize (H k). destruct (sg k), (vars s k); try contradiction; [|rewrite H in Hx; destruct Hx]. destruct H as [H _]. exact (proj1 (reads_lt _) _ _ _ H x Hx).
  Qed.
  (* one variable gets a new value *)
  Lemma represents_set s sg C s' k v' t' ls' : represents s sg C -> vars s' k = Some v' -> reads (hp s') v' t' ls' -> NoDup ls' ->
    same_but (hp s) (hp s') (C k) -> (forall x, In x ls' -> In x (C k) \/ fresh (hp s) x) -> (forall k', k' <> k -> vars s' k' = vars s k') ->
    represents s' (with_value K_dec sg k t') (fun k' => if K_dec k k' then ls' else C k').
  Proof.
    intros HR Hv R' ND S I Hs. pose proof HR as [H D]. split.
    - intros k'. unfold with_value. destruct (K_dec k k') as [<-|N]; [rewrite Hv; auto|]. specialize (H k'). rewrite Hs by congruence.
      destruct (sg k') as [t|], (vars s k') as [v|]; try contradiction; [|exact H]. destruct H as [H N']. split; [|exact N'].
      eapply same_reads; [exact S|exact H|]. intros x Hx. apply (D k' k x); [congruence|exact Hx].
    - assert (X : forall k' x, k' <> k -> In x ls' -> ~ In x (C k')).
      { intros k' x N Hx Hx2. destruct (I x Hx) as [Hi|Hi]; [apply (D k k' x); congruence|]. pose proof (represents_lt _ _ _ k' x HR Hx2). unfold fresh in Hi. lia. }
      intros k1 k2 x N H1 H2. destruct (K_dec k k1), (K_dec k k2); try congruence.
      + apply (X k2 x); congruence.
      + apply (X k1 x); congruence.
      + exact (D k1 k2 x N H1 H2).
  Qed.
  Lemma represents_ext s sg C h : represents s sg C -> represents (mkHS (hp s ++ h) (vars s)) sg C.
  Proof.
    intros [H D]. split; [|exact D]. intros k. specialize (H k). cbn [vars hp]. destruct (sg k), (vars s k); try contradiction; [|exact H]. destruct H. split; [apply reads_ext; assumption|assumption].
  Qed.
  Lemma step_represents s sg C st a : represents s sg C -> realises s st a ->
    match meaning st sg with
    | Some sg' => exists s' C', exec a s = (Ok tt, s') /\ represents s' sg' C'
    | None => exists s', exec a s = (Err, s')  \/ exec a s = (Panic, s')
    end.
  Proof.
    intros HR Ha. pose proof HR as [H D]. destruct st as [k t|k g ids ds t|k key], a as [|k' R|k' v|k'|k' f ids' ds' R|k' key']; try contradiction; cbn [S_HeapUpdate.meaning].
    - destruct Ha as [<- (lr & Rr)]. destruct (Copy_ok _ _ _ _ Rr) as (hx & v' & lx & Ec & Rx & NDx & Fx).
      eexists _, _. split; [cbn [M_Heap.exec]; unfold in_heap; rewrite Ec; reflexivity|].
      eapply represents_set; [exact HR| |exact Rx|exact NDx| | |]; unfold setvar; cbn [hp vars].
      + destruct (K_dec k k); congruence.
      + intros x Hx _. apply nth_error_app1, Hx.
      + intros x Hx. right. apply Fx, Hx.
      + intros k' Hk. destruct (K_dec k k'); congruence.
    - destruct Ha as (<- & <- & <- & Hfg & (lr & Rr) & Dis). specialize (H k). destruct (sg k) as [old|] eqn:Es, (vars s k) as [w|] eqn:Hw; try contradiction.
      + destruct H as [Rw ND]. assert (Dis' : forall x, In x lr -> ~ In x (C k)) by (intros x H1 H2; apply (Dis w eq_refl); exists t, lr, old, (C k), x; auto).
        pose proof (update_ok conv origin f g Hfg K_dec s k w old (C k) ids ds R t lr Hw Rw ND Rr Dis') as G. unfold updated in G.
        destruct (update g old ids ds t) as [t'|]; cbn [option_map]; [|destruct G as (s' & E); exists s'; auto].
        destruct G as (s' & v' & ls' & E & Hv & R' & ND' & _ & S & I & Hs). exists s'. eexists. split; [exact E|]. eapply represents_set; eassumption.
      + exists s. left. cbn [M_Heap.exec]. rewrite Hw. reflexivity.
    - destruct Ha as [<- <-]. specialize (H k). destruct (sg k) as [old|] eqn:Es, (vars s k) as [w|] eqn:Hw; try contradiction.
      + destruct H as [Rw ND]. destruct old as [a|hd ts]; [inversion Rw; subst; exists s; left; cbn [M_Heap.exec]; rewrite Hw; reflexivity|].
        remember (C k) as ck eqn:Eck. inversion Rw as [|l c ts0 ls Hc Hd_Hc Ra]; subst hd ts0 w. rename H2 into Ec.
        destruct c as [hd ks]. cbn [hdof kids] in *.
        assert (Ll : (l < length (hp s))%nat) by (apply nth_error_Some; congruence).
        assert (Hc1 : nth_error (hp s ++ [mkCell (HArr None []) []]) l = Some (mkCell hd ks)) by (rewrite nth_error_app1 by lia; exact Hc).
        assert (Ex : exec (NewKey k key) s = match hd with
            | HDct keys => (Ok tt, mkHS (hupd (hp s ++ [mkCell (HArr None []) []]) l (mkCell (HDct (keys ++ [key])) (ks ++ [HRef (length (hp s))]))) (vars s))
            | _ => (Panic, mkHS (hp s ++ [mkCell (HArr None []) []]) (vars s)) end).
        { cbn [M_Heap.exec]. rewrite Hw. unfold in_heap, dnew, ebind, alloc, cell_at. rewrite Hc1. cbn [hdof kids]. destruct hd; reflexivity. }
        destruct hd as [u dd| |keys]; [eexists; right; exact Ex|eexists; right; exact Ex|]. eexists _, _. split; [exact Ex|].
        pose proof (reads_acyclic _ _ _ _ _ Hc Ra) as Nl. pose proof (proj2 (reads_lt _) _ _ _ Ra) as Lls. cbn [kids] in *.
        eapply represents_set with (v' := HRef l) (ls' := l :: ls ++ [length (hp s)]); [exact HR|exact Hw| | | | |auto]; cbn [hp vars].
        * change (HDct (keys ++ [key])) with (hdof (mkCell (U := U) (HDct (keys ++ [key])) (ks ++ [HRef (length (hp s))]))). econstructor; [apply hupd_eq; rewrite app_length; lia|reflexivity|]. cbn [kids].
          assert (Rn : forall vs ts1 l1 v t1 lv, reads_all (hp s ++ [mkCell (HArr None []) []]) vs ts1 l1 -> ~ In l l1 -> reads (hupd (hp s ++ [mkCell (HArr None []) []]) l (mkCell (HDct (keys ++ [key])) (ks ++ [HRef (length (hp s))]))) v t1 lv ->
            reads_all (hupd (hp s ++ [mkCell (HArr None []) []]) l (mkCell (HDct (keys ++ [key])) (ks ++ [HRef (length (hp s))]))) (vs ++ [v]) (ts1 ++ [t1]) (l1 ++ lv)).
          { induction 1 as [|v0 t0 l0 vs ts1 l1 Rv0 Rvs IHr]; intros Nn Rv.
            - cbn [app]. rewrite <- (app_nil_r lv). constructor; [exact Rv|constructor].
            - cbn [app]. rewrite <- app_assoc. rewrite in_app_iff in Nn. constructor; [|apply IHr; [tauto|exact Rv]].
              eapply (proj1 (reads_frame _ _)); [exact Rv0|]. intros x Hx. apply hupd_neq. intros ->. tauto. }
          apply Rn; [apply reads_all_ext, Ra|exact Nl|]. change (@HArr A U None []) with (hdof (mkCell (A := A) (U := U) (HArr None []) [])). econstructor; [|reflexivity|constructor].
          rewrite hupd_neq by lia. rewrite nth_error_app2, Nat.sub_diag by lia. reflexivity.
        * rewrite <- Ec in ND. inversion ND as [|? ? N1 N2]; subst. constructor.
          -- rewrite in_app_iff. intros [Hi|[Hi|[]]]; [tauto|lia].
          -- apply NoDup_two; [exact N2|repeat constructor; intros []|]. intros x Hx [<-|[]]. specialize (Lls _ Hx). lia.
        * rewrite <- Eck, <- Ec. intros x Hx Hn. rewrite hupd_neq by (intros ->; apply Hn; left; reflexivity). apply nth_error_app1, Hx.
        * rewrite <- Eck, <- Ec. intros x [->|Hx]; [left; left; reflexivity|]. apply in_app_or in Hx as [Hx|[<-|[]]]; [left; right; exact Hx|right; unfold fresh; lia].
      + exists s. left. cbn [M_Heap.exec]. rewrite Hw. reflexivity.
  Qed.
  Lemma executes_represents s sts s' : executes s sts s' -> forall sg C, represents s sg C -> exists sg' C', meanings sts sg = Some sg' /\ represents s' sg' C'.
  Proof.
    induction 1 as [s|s c o s1 sts s' Hk E X IH|s st a s1 sts s' Ha E X IH]; intros sg C HR.
    - exists sg, C. auto.
    - cbn [M_Heap.exec] in E. unfold in_heap, alloc in E. injection E as _ <-. apply IH with (C := C). apply represents_ext, HR.
    - pose proof (step_represents _ _ _ _ _ HR Ha) as G. cbn [S_HeapUpdate.meanings]. destruct (meaning st sg) as [sg1|]; [|destruct G as (s2 & [G|G]); congruence].
      destruct G as (s2 & C1 & E2 & HR1). rewrite E in E2. injection E2 as <-. exact (IH _ _ HR1).
  Qed.
  Lemma initial_represents : represents initial (fun _ => None) (fun _ => []).
  Proof. split; [intros k; reflexivity|intros k k' x _ []]. Qed.
  (* C101: after a program of assignments every variable has the value that the program means,
     without references *)
  Theorem C101_program_partial sts s : executes initial sts s ->
    exists sg, meanings sts (fun _ => None) = Some sg /\ forall k t, value_of s k t <-> sg k = Some t.
  Proof.
    intros X. destruct (executes_represents _ _ _ X _ _ initial_represents) as (sg & C & E & HR). exists sg. split; [exact E|]. exact (represents_values _ _ _ HR).
  Qed.
  (* and the next statement succeeds if it means anything *)
  Theorem C101_next_partial sts s sg st a : executes initial sts s -> meanings sts (fun _ => None) = Some sg -> realises s st a ->
    match meaning st sg with
    | Some sg' => exists s', exec a s = (Ok tt, s') /\ forall k t, value_of s' k t <-> sg' k = Some t
    | None => forall s', exec a s <> (Ok tt, s')
    end.
  Proof.
    intros X E Ha. destruct (executes_represents _ _ _ X _ _ initial_represents) as (sg1 & C & E1 & HR). rewrite E in E1. injection E1 as <-.
    pose proof (step_represents _ _ _ _ _ HR Ha) as G. destruct (meaning st sg) as [sg'|].
    - destruct G as (s' & C' & E2 & HR'). exists s'. split; [exact E2|]. exact (represents_values _ _ _ HR').
    - destruct G as (s2 & [G|G]); congruence.
  Qed.
End P.

(* A←1 2 3 ⋄ A[2 3]+←10 20 ⋄ A[1]←(1 2 3) ⋄ a list L with the path 1 0 ⋄ a dictionary D *)
Definition plus (v w : hval Z) : H Z unit (hval Z) := match v, w with HAtom a, HAtom b => eret (HAtom (a + b)) | _, _ => efail end.
Definition tplus (t t' : tree Z unit) : option (tree Z unit) := match t, t' with Leaf a, Leaf b => Some (Leaf (a + b)) | _, _ => None end.
Lemma plus_computes : computes plus tplus.
Proof.
  intros h v w t ls t' ls' R R'. inversion R; subst; inversion R'; subst; cbn; try (exists []; rewrite app_nil_r; reflexivity).
  eexists _, [], []. rewrite app_nil_r. split; [reflexivity|]. split; [constructor|intros y []].
Qed.
Local Notation execs := (executes anyconv 1 Nat.eq_dec).
Definition A0 := 0%nat. Definition D0 := 1%nat.
Definition prog1 : list (stmt (A := Z) (U := unit) (K := nat)) :=
  [SSet A0 (tints [1; 2; 3]); SUpd A0 (Some tplus) [2] [1; 2] (tints [10; 20]); SUpd A0 None [1] [0] (Node HLst [Node HLst [Leaf 4; tints [5; 6]]]);
   SSet D0 (Node (HDct [7]) [Leaf 70]); SNew D0 8; SUpd D0 None [1] [2] (tints [5; 6])].
Definition final1 : store (A := Z) (U := unit) :=
  with_value Nat.eq_dec (with_value Nat.eq_dec (fun _ => None) A0 (Node (HArr None [3]) [Node HLst [Leaf 4; tints [5; 6]]; Leaf 12; Leaf 23])) D0
    (Node (HDct [7; 8]) [Leaf 70; tints [5; 6]]).
Lemma view_apart n h v w t ls t' ls' : view n h v = Some (t, ls) -> view n h w = Some (t', ls') ->
  forallb (fun x => negb (existsb (Nat.eqb x) ls')) ls = true -> ~ share h v w.
Proof.
  intros Ev Ew D (t1 & l1 & t2 & l2 & x & R1 & R2 & H1 & H2). apply view_reads in Ev, Ew.
  destruct (proj1 (reads_det _) _ _ _ Ev _ _ R1) as [-> ->]. destruct (proj1 (reads_det _) _ _ _ Ew _ _ R2) as [-> ->].
  rewrite forallb_forall in D. specialize (D x H1). apply negb_true_iff in D. assert (existsb (Nat.eqb x) ls' = true); [|congruence].
  apply existsb_exists. exists x. split; [exact H2|apply Nat.eqb_refl].
Qed.
Lemma view_value n h v : (exists t ls, view n h v = Some (t, ls)) -> is_value h v.
Proof. intros (t & ls & E). exists t, ls. eapply view_reads. exact E. Qed.
Ltac new_cell c := refine (ex_eval _ _ _ _ c _ _ _ _ _ eq_refl _); [cbn [kids ints map]; repeat apply Forall_cons; try apply Forall_nil; apply (view_value 5%nat); eexists _, _; vm_compute; reflexivity|].
Ltac reads_value := eexists; eapply (view_reads 5%nat); vm_compute; reflexivity.
Ltac apart_value := intros w Hw; vm_compute in Hw; injection Hw as <-; eapply (view_apart 5%nat); vm_compute; reflexivity.
Lemma prog1_runs : exists s, execs initial prog1 s.
Proof.
  eexists. unfold prog1.
  new_cell (ints [1; 2; 3]). refine (ex_step _ _ _ _ _ (Assign A0 (HRef 0)) _ _ _ _ _ _); [split; [reflexivity|]; reads_value|vm_compute; reflexivity|].
  new_cell (ints [10; 20]). refine (ex_step _ _ _ _ _ (Update A0 (Some plus) [2] [1; 2] (HRef 2)) _ _ _ _ _ _).
  { do 3 (split; [reflexivity|]). split; [exact plus_computes|]. split; [reads_value|apart_value]. } { vm_compute. reflexivity. }
  new_cell (ints [5; 6]). new_cell (mkCell (U := unit) HLst [HAtom 4; HRef 4]). new_cell (mkCell (A := Z) (U := unit) HLst [HRef 5]).
  refine (ex_step _ _ _ _ _ (Update A0 None [1] [0] (HRef 6)) _ _ _ _ _ _).
  { do 3 (split; [reflexivity|]). split; [exact Logic.I|]. split; [reads_value|apart_value]. } { vm_compute. reflexivity. }
  new_cell (mkCell (U := unit) (HDct [7]) [HAtom 70]). refine (ex_step _ _ _ _ _ (Assign D0 (HRef 13)) _ _ _ _ _ _); [split; [reflexivity|]; reads_value|vm_compute; reflexivity|].
  refine (ex_step _ _ _ _ _ (NewKey D0 8) _ _ _ _ _ _); [split; reflexivity|vm_compute; reflexivity|].
  new_cell (ints [5; 6]). refine (ex_step _ _ _ _ _ (Update D0 None [1] [2] (HRef 16)) _ _ _ _ _ _).
  { do 3 (split; [reflexivity|]). split; [exact Logic.I|]. split; [reads_value|apart_value]. } { vm_compute. reflexivity. }
  constructor.
Qed.
Example C101_example : exists s, execs initial prog1 s /\ forall k t, value_of s k t <-> final1 k = Some t.
Proof.
  destruct prog1_runs as (s & X). exists s. split; [exact X|]. destruct (C101_program_partial _ _ _ _ _ X) as (sg & E & V). intros k t. rewrite V.
  assert (F : sg k = final1 k); [|rewrite F; reflexivity]. vm_compute in E. injection E as <-. unfold final1, with_value, A0, D0.
  destruct k as [|[|k]]; reflexivity.
Qed.
(* C101 is false for arrays of complex numbers, which assignment does not copy
   (numbers/complexs.go:19-23): A←x y ⋄ B←A ⋄ B[1]←z; A is z y, and it should be x y *)
Theorem C101_complex_refuted (x y z : Z) : z <> x ->
  let tnums l := Node (HArr (Some true) [zlen l]) (map Leaf l) : tree Z bool in
  exists sg, meanings numconv 1 Nat.eq_dec [SSet 0%nat (tnums [x; y]); SSet 1%nat (tnums [x; y]); SUpd 1%nat None [1] [0] (Leaf z)] (fun _ => None) = Some sg /\
  sg 0%nat = Some (tnums [x; y]) /\ sg 1%nat = Some (tnums [z; y]) /\
  exists s1 s2 s3 s4 l, exec numconv 1 Nat.eq_dec (Eval (nums true [x; y])) initial = (Ok tt, s1) /\
    exec numconv 1 Nat.eq_dec (Assign 0%nat (HRef 0)) s1 = (Ok tt, s2) /\ vars s2 0%nat = Some (HRef l) /\
    exec numconv 1 Nat.eq_dec (Assign 1%nat (HRef l)) s2 = (Ok tt, s3) /\
    exec numconv 1 Nat.eq_dec (Update 1%nat None [1] [0] (HAtom z)) s3 = (Ok tt, s4) /\
    vars s4 0%nat = Some (HRef l) /\ nth_error (hp s4) l = Some (nums true [z; y]) /\ nth_error (hp s4) l <> Some (nums true [x; y]).
Proof.
  intros N tnums. eexists. repeat (split; [reflexivity|]). eexists _, _, _, _, _. repeat (split; [reflexivity|]).
  cbn. unfold nums. cbn. congruence.
Qed.
(* without the condition on R the theorem is false: A←1 2 3 ⋄ A[3 2 1]←A gives 1 2 1, with values it is 3 2 1 *)
Example C101_shared : let s := runs setup initial in
  value_of s 0%nat (tints [1; 2; 3]) /\ vars s 0%nat = Some (HRef 1) /\
  update anyconv 1 None (tints [1; 2; 3]) [3] [2; 1; 0] (tints [1; 2; 3]) = Some (tints [3; 2; 1]) /\
  exists s', exec anyconv 1 Nat.eq_dec (Update 0%nat None [3] [2; 1; 0] (HRef 1)) s = (Ok tt, s') /\ value_of s' 0%nat (tints [1; 2; 1]).
Proof.
  cbn zeta. split; [exists (HRef 1), [1%nat]; split; [reflexivity|apply reads_ints; reflexivity]|]. split; [reflexivity|]. split; [reflexivity|].
  eexists. split; [vm_compute; reflexivity|]. eexists _, _. split; [reflexivity|]. eapply (view_reads 5). vm_compute. reflexivity.
Qed.
Print Assumptions C101_update_partial. Print Assumptions C101_program_partial. Print Assumptions C101_next_partial. Print Assumptions C101_complex_refuted.
