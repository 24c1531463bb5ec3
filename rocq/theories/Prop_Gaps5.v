(* Prop_Gaps5.v -- further theorems for C47 and C168, found by testing against wrong programs. *)
From Coq Require Import String QArith List.
From Verif Require Import Base Eff M_Array M_Strings S_Strings P_Strings M_Mount S_Mount P_Mount M_IoFns Prop_IoFns.
Import ListNotations. Open Scope Z_scope. Open Scope list_scope.

Section C168.
  Context {X : Type} (isdir : list bytes -> option bool) (fsString : ofs X -> bytes).
  (* io→umount takes exactly the mount point out of the table, and nothing else changes *)
  Theorem C168_umount (s : io X) m : NoDup (map fst (mtable s)) ->
    exists t, umount (AStr m) s = (Ok REmptyArray, mkIo t (protos s) (wdir s)) /\ (forall e, In e t <-> In e (mtable s) /\ fst e <> m).
  Proof.
    intros N. exists (filter (fun e => negb (beq (fst e) m)) (mtable s)). split.
    - unfold umount. rewrite Umount_filter by exact N. reflexivity.
    - intros e. rewrite filter_In. split; intros [I D]; (split; [exact I|]).
      + intros E. apply beq_iff in E. rewrite E in D. discriminate D.
      + apply negb_true_iff, not_true_iff_false. intros E. apply beq_iff in E. contradiction.
  Qed.
  (* what was mounted can be unmounted: everything is as before *)
  Theorem C168_mount_umount (s s' : io X) m src r : NoDup (map fst (mtable s)) ->
    mount isdir fsString (Some (AStr m)) (AStr src) s = (Ok r, s') -> umount (AStr m) s' = (Ok REmptyArray, s).
  Proof.
    intros N E. apply C168_mount in E as (f & _ & _ & D & _ & ->). unfold umount. cbn [mtable protos wdir]. rewrite Umount_filter.
    - rewrite filter_app. cbn [filter fst]. rewrite beq_refl. cbn [negb]. rewrite app_nil_r. replace (filter _ (mtable s)) with (mtable s); [destruct s; reflexivity|].
      clear N. induction (mtable s) as [|[m' f'] t IH]; [reflexivity|]. cbn [map fst] in D. cbn [filter fst]. destruct (beq m' m) eqn:B.
      + exfalso. apply beq_iff in B. subst. apply D. left. reflexivity.
      + cbn [negb]. f_equal. apply IH. intros I. apply D. right. exact I.
    - rewrite map_app. cbn [map fst]. apply (Permutation.Permutation_NoDup (l := m :: map fst (mtable s))); [apply Permutation.Permutation_cons_append|]. constructor; assumption.
  Qed.
  (* a protocol which is registered again is replaced, the others stay *)
  Theorem C168_registered (s : io X) n f : plain_protocols (protos s) -> ~ occurs proto_sep n ->
    plain_protocols (protos (RegisterProtocol n f s)) /\
    (forall n' f', In (n', f') (protos (RegisterProtocol n f s)) <-> (n' = n /\ f' = f) \/ (n' <> n /\ In (n', f') (protos s))) /\
    mtable (RegisterProtocol n f s) = mtable s.
  Proof.
    intros [D P] O. unfold RegisterProtocol. cbn [protos mtable]. set (rest := filter (fun p => negb (beq (fst p) n)) (protos s)).
    assert (R : forall n' f', In (n', f') rest <-> n' <> n /\ In (n', f') (protos s)).
    { intros n' f'. unfold rest. rewrite filter_In. cbn [fst]. split; intros [A B]; (split; try assumption).
      - intros ->. rewrite beq_refl in B. discriminate B.
      - apply negb_true_iff, not_true_iff_false. intros E. apply beq_iff in E. contradiction. }
    split; [split|split; [|reflexivity]].
    - cbn [map fst]. constructor.
      + intros I. apply in_map_iff in I as ([n' f'] & E & I). cbn [fst] in E. subst n'. apply R in I as [I _]. contradiction.
      + clear R. unfold rest. clear rest. induction (protos s) as [|[a b] ps IH]; [constructor|]. cbn [map fst] in D. apply NoDup_cons_iff in D as [D1 D2].
        assert (P' : forall n0 f0, In (n0, f0) ps -> ~ occurs proto_sep n0) by (intros n0 f0 I0; apply (P n0 f0); right; exact I0).
        cbn [filter fst]. destruct (negb (beq a n)); [|exact (IH D2 P')]. cbn [map fst]. constructor; [|exact (IH D2 P')].
        intros I. apply D1. apply in_map_iff in I as ([a' b'] & E & I). cbn [fst] in E. subst a'. apply filter_In in I as [I _]. exact (in_map fst _ _ I).
    - intros n' f' [E|I]; [injection E as <- <-; exact O|]. apply R in I as [_ I]. exact (P _ _ I).
    - intros n' f'. cbn [In]. rewrite R. split; [intros [E|H]; [injection E as <- <-; left; split; reflexivity|right; exact H]|intros [[-> ->]|H]; [left; reflexivity|right; exact H]].
  Qed.
End C168.
Print Assumptions C168_umount. Print Assumptions C168_mount_umount. Print Assumptions C168_registered.
(* two protocols, one registered again: its old function is gone *)
Example C168_example_registered : let f (k : Z) (b : bytes) := Ok (Ext k) : outcome (ofs Z) in
  protos (RegisterProtocol [97] (f 2) (RegisterProtocol [98] (f 1) (RegisterProtocol [97] (f 0) (mkIo [] [] [])))) = [([97], f 2); ([98], f 1)].
Proof. reflexivity. Qed.

From Verif Require Import M_Number S_Number P_Number P_Tower.
(* Division of exact fractions: the exact quotient; by zero it is an exception, one for 0÷0 and one for all others *)
Theorem C47_fractions : forall rf (x y : Q), exists r, arith2 (bigM rf) bigT (div2 (bigM rf)) (VNum (NT (BR x))) (VNum (NT (BR y))) = Ok r /\
  ((y == 0)%Q -> (x == 0)%Q -> r = VOth excT "NaN"%string) /\
  ((y == 0)%Q -> ~ (x == 0)%Q -> r = VOth excT "inf"%string) /\
  (~ (y == 0)%Q -> exists n, r = VNum n /\ (qval n * y == x)%Q).
Proof.
  intros rf x y.
  assert (G : forall v, big_rdiv2 x y = Some v -> arith2 (bigM rf) bigT (div2 (bigM rf)) (VNum (NT (BR x))) (VNum (NT (BR y))) = Ok v).
  { intros v E. apply arith2_direct; [reflexivity|]. unfold div2, with_int. cbn [pdiv2 bigM bi2]. rewrite E. reflexivity. }
  unfold big_rdiv2 in G. destruct (Qeq_bool x 0) eqn:X0, (Qeq_bool y 0) eqn:Y0; cbn [andb] in G;
    (first [apply Qeq_bool_iff in X0 | apply Qeq_bool_neq in X0]); (first [apply Qeq_bool_iff in Y0 | apply Qeq_bool_neq in Y0]);
    (eexists; split; [apply G; reflexivity|]); (split; [intros A B; first [reflexivity | contradiction]|]);
    (split; [intros A B; first [reflexivity | contradiction]|]); intros A; try contradiction; (eexists; split; [reflexivity|]).
  - cbn [qval]. rewrite X0. ring.
  - cbn [qval]. rewrite Qred_correct. field. exact A.
Qed.
Print Assumptions C47_fractions.
