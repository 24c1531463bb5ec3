(* Prop_Rpc.v -- C132: remote procedure calls. *)
From Verif Require Import Base M_Rpc.
From Coq Require Import List Lia ZArith.
Import ListNotations.
Open Scope Z_scope.

Section Props.
  Context {V Fn text St : Type} (empty : text) (teqb : text -> text -> bool) (sendable : V -> bool).
  Context (func_of : text -> St -> outcome Fn * St) (apply : Fn -> option V -> V -> St -> outcome V * St).
  Local Notation Call := (Call empty teqb sendable func_of apply).
  Local Notation calls := (calls empty teqb sendable func_of apply).
  Local Notation dialed := (@dialed V text St empty).
  Definition equality : Prop := forall a b, teqb a b = true <-> a = b.

  (* the call, made in the server's interpreter *)
  Definition local_call (f : text) (L : option V) (R : V) (s : St) : outcome V * St :=
    match func_of f s with
    | (Ok g, s) => apply g L R s
    | (Err, s) => (Err, s)
    | (Panic, s) => (Panic, s)
    end.
  Definition sent (L : option V) (R : V) : Prop := sendable R = true /\ forall l, L = Some l -> sendable l = true.
  (* a sequence of calls, made in the server's interpreter: the values, until one panics or gives a
     value that cannot be sent *)
  Inductive local_calls : list (text * option V * V) -> St -> list (outcome V) -> St -> Prop :=
  | lc_nil s : local_calls [] s [] s
  | lc_ok f L R l s v s1 rs s2 : sent L R -> local_call f L R s = (Ok v, s1) -> sendable v = true -> local_calls l s1 rs s2 ->
      local_calls ((f, L, R) :: l) s (Ok v :: rs) s2
  | lc_err f L R l s s1 rs s2 : sent L R -> local_call f L R s = (Err, s1) -> local_calls l s1 rs s2 ->
      local_calls ((f, L, R) :: l) s (Err :: rs) s2.
  (* all calls have a left argument, or there is no call without one after a call with one *)
  Fixpoint no_stale (l : list (text * option V * V)) (dyadic : bool) : Prop :=
    match l with
    | [] => True
    | (f, L, R) :: l' => f <> empty /\ (dyadic = true -> L <> None) /\ no_stale l' (dyadic || match L with Some _ => true | None => false end)
    end.
  Lemma decode_fresh (T : equality) (old : @request V text) f (L : option V) R : f <> empty -> (q_L old <> None -> L <> None) ->
    decode empty teqb old (mkRequest f L (Some R)) = mkRequest f L (Some R).
  Proof.
    intros N H. unfold decode. cbn [q_fn q_L q_R or_else]. destruct (teqb f empty) eqn:E; [apply T in E; congruence|]. f_equal.
    destruct L; [reflexivity|]. destruct (q_L old); [destruct H; congruence|reflexivity].
  Qed.
  (* A session: each call gives the value the server's interpreter gives, errors are passed on and
     the connection can still be used. *)
  Theorem C132_session_partial (T : equality) l s rs s' : no_stale l false -> local_calls l s rs s' ->
    exists c', calls l (dialed s) = (rs, c') /\ c_open c' = true /\ c_state c' = s' /\ c_alive c' = true.
  Proof.
    intros N H. 
    assert (G : forall c d, (q_L (c_req c) <> None -> d = true) -> c_open c = true -> c_alive c = true -> c_state c = s -> no_stale l d ->
              exists c', calls l c = (rs, c') /\ c_open c' = true /\ c_state c' = s' /\ c_alive c' = true); [|apply (G (dialed s) false); try reflexivity; try exact N; intros X; cbn in X; congruence].
    clear N. induction H as [s|f L R l s v s1 rs s2 (SR & SL) E Sv _ IH|f L R l s s1 rs s2 (SR & SL) E _ IH]; intros c d D O A S N.
    - exists c. repeat split; assumption.
    - destruct N as (Nf & Nd & N). cbn [M_Rpc.calls].
      assert (SS : (sends sendable L && sends sendable (Some R))%bool = true).
      { cbn [sends]. rewrite SR. destruct L as [l0|]; cbn [sends]; [rewrite (SL l0 eq_refl)|]; reflexivity. }
      assert (CE : Call f L (Some R) c = (Ok v, mkConn true (mkRequest f L (Some R)) s1 true)).
      { unfold M_Rpc.Call. rewrite O, SS. cbn [negb orb]. rewrite decode_fresh; [|exact T|exact Nf|intros X; apply Nd, D, X].
        unfold exec. cbn [q_fn q_L q_R]. subst s. unfold local_call in E. destruct (func_of f (c_state c)) as [[g| |] s0]; try discriminate E. rewrite E, Sv. reflexivity. }
      rewrite CE. destruct (IH (mkConn true (mkRequest f L (Some R)) s1 true) (d || match L with Some _ => true | None => false end)%bool) as (c' & E' & X); try reflexivity; try exact N.
      + cbn [c_req q_L]. intros X. destruct L; [apply Bool.orb_true_r|congruence].
      + exists c'. rewrite E'. split; [reflexivity|exact X].
    - destruct N as (Nf & Nd & N). cbn [M_Rpc.calls].
      assert (SS : (sends sendable L && sends sendable (Some R))%bool = true).
      { cbn [sends]. rewrite SR. destruct L as [l0|]; cbn [sends]; [rewrite (SL l0 eq_refl)|]; reflexivity. }
      assert (CE : Call f L (Some R) c = (Err, mkConn true (mkRequest f L (Some R)) s1 true)).
      { unfold M_Rpc.Call. rewrite O, SS. cbn [negb orb]. rewrite decode_fresh; [|exact T|exact Nf|intros X; apply Nd, D, X].
        unfold exec. cbn [q_fn q_L q_R]. subst s. unfold local_call in E. destruct (func_of f (c_state c)) as [[g| |] s0]; try discriminate E; [|injection E as <-; reflexivity].
        rewrite E. reflexivity. }
      rewrite CE. destruct (IH (mkConn true (mkRequest f L (Some R)) s1 true) (d || match L with Some _ => true | None => false end)%bool) as (c' & E' & X); try reflexivity; try exact N.
      + cbn [c_req q_L]. intros X. destruct L; [apply Bool.orb_true_r|congruence].
      + exists c'. rewrite E'. split; [reflexivity|exact X].
  Qed.
  (* The full claim is false: a call without a left argument is made with the left argument of the
     last call that had one, *)
  Theorem C132_stale_refuted (T : equality) f L R f' R' s v c : f <> empty -> f' <> empty -> sent (Some L) R -> sendable R' = true ->
    Call f (Some L) (Some R) (dialed s) = (Ok v, c) ->
    Call f' None (Some R') c = Call f' (Some L) (Some R') c.
  Proof.
    intros Nf Nf' (SR & SL) SR' E. specialize (SL L eq_refl).
    assert (Q : q_L (c_req c) = Some L).
    { unfold M_Rpc.Call in E. cbn [c_open negb orb dialed sends c_req c_state c_alive] in E. rewrite SL, SR in E. cbn [andb negb orb] in E.
      destruct (exec func_of apply _ s) as [[w| |] s1]; [destruct (sendable w); [|discriminate E]|discriminate E..]. injection E as _ <-. reflexivity. }
    unfold M_Rpc.Call. cbn [sends]. rewrite SL, SR'. cbn [andb].
    replace (decode empty teqb (c_req c) (mkRequest f' None (Some R'))) with (decode empty teqb (c_req c) (mkRequest f' (Some L) (Some R'))); [reflexivity|].
    unfold decode. cbn [q_L or_else]. rewrite Q. reflexivity.
  Qed.
  (* ... and a panic of the function ends the server. *)
  Theorem C132_panic_refuted (T : equality) f L R s s1 : f <> empty -> sent L R -> local_call f L R s = (Panic, s1) ->
    exists c, Call f L (Some R) (dialed s) = (Err, c) /\ c_alive c = false.
  Proof.
    intros Nf (SR & SL) E. unfold M_Rpc.Call. cbn [dialed c_open negb orb c_req c_state c_alive].
    assert (SS : (sends sendable L && sends sendable (Some R))%bool = true).
    { cbn [sends]. rewrite SR. destruct L as [l0|]; cbn [sends]; [rewrite (SL l0 eq_refl)|]; reflexivity. }
    rewrite SS. cbn [negb]. rewrite decode_fresh; [|exact T|exact Nf|cbn; congruence].
    unfold exec. cbn [q_fn q_L q_R]. unfold local_call in E. destruct (func_of f s) as [[g| |] s0]; try discriminate E; [rewrite E|injection E as <-]; eexists; split; reflexivity.
  Qed.
  (* A value that cannot be sent, in either direction, closes the connection: all later calls fail,
     and leave the server as it is. *)
  Theorem C132_closed c : c_open c = false -> forall l, exists rs c', calls l c = (rs, c') /\ Forall (fun r => r = Err) rs /\ c_state c' = c_state c /\ c_open c' = false.
  Proof.
    intros O l. revert c O. induction l as [|[[f L] R] l IH]; intros c O; [exists [], c; repeat split; [constructor|exact O]|].
    cbn [M_Rpc.calls]. unfold M_Rpc.Call at 1. rewrite O. cbn [negb orb].
    destruct (IH (mkConn false (c_req c) (c_state c) (c_alive c)) eq_refl) as (rs & c' & E & X & Y & Z). exists (Err :: rs), c'. rewrite E. repeat split; [constructor; [reflexivity|exact X]|exact Y|exact Z].
  Qed.
  Theorem C132_unsendable f L R c : ~ sent L R -> exists c', Call f L (Some R) c = (Err, c') /\ c_open c' = false /\ c_state c' = c_state c.
  Proof.
    intros N. unfold M_Rpc.Call. replace (sends sendable L && sends sendable (Some R))%bool with false; [rewrite Bool.orb_true_r; eexists; split; [reflexivity|split; reflexivity]|].
    symmetry. apply Bool.not_true_iff_false. intros E. apply N. apply andb_prop in E. destruct E as (E1 & E2). split; [exact E2|]. intros l ->. exact E1.
  Qed.
  (* rpc→call needs a list of a connection, a string and one or two arguments: with two the first
     is the left argument. *)
  Theorem C132_call_list (as_value : @lvalue V text -> V) (R : option (list (@lvalue V text))) c f L (Rv : V) :
    call_args as_value R = Ok (c, f, L, Rv) <->
    exists x, (R = Some [LConn c; LStr f; x] /\ L = None /\ Rv = as_value x) \/
              (exists y, R = Some [LConn c; LStr f; x; y] /\ L = Some (as_value x) /\ Rv = as_value y).
  Proof.
    split.
    - destruct R as [l|]; [|discriminate]. cbn [call_args]. destruct (Z.ltb_spec (zlen l) 3) as [|A]; [discriminate|]. destruct (Z.ltb_spec 4 (zlen l)) as [|B]; [discriminate|].
      destruct l as [|[c0| |] [|[|f0|] [|x [|y l]]]]; try discriminate.
      + intros E. injection E as <- <- <- <-. exists x. left. repeat split.
      + intros E. injection E as <- <- <- <-. exists x. right. exists y. split; [|split; reflexivity]. destruct l as [|z l0]; [reflexivity|]. rewrite !zlen_cons in B. pose proof (zlen_nonneg l0). lia.
    - intros (x & [(-> & -> & ->)|(y & -> & -> & ->)]); reflexivity.
  Qed.
End Props.
Print Assumptions C132_session_partial.
Print Assumptions C132_stale_refuted.
Print Assumptions C132_call_list.

(* the functions "-" (1) and "÷" (2); 3 is not a function *)
Definition ex_func (f : Z) (s : Z) : outcome Z * Z := if f =? 3 then (Err, s) else (Ok f, s + 1).
Definition ex_apply (g : Z) (L : option Z) (R : Z) (s : Z) : outcome Z * Z :=
  match L with
  | None => (Ok (- R), s)
  | Some l => if g =? 1 then (Ok (l - R), s) else if R =? 0 then (Err, s) else (Ok (l / R), s)
  end.
Local Notation Q := (calls 0 Z.eqb (fun v => v <? 1000) ex_func ex_apply).
Example C132_example :
  fst (Q [(1, None, 4); (2, Some 7, 0); (3, Some 7, 1); (2, Some 7, 2)] (dialed 0 0)) = [Ok (-4); Err; Err; Ok 3]
  /\ no_stale 0 [(1, None, 4); (2, Some 7, 0); (3, Some 7, 1); (2, Some 7, 2)] false
  /\ local_calls (fun v => v <? 1000) ex_func ex_apply [(1, None, 4); (2, Some 7, 0)] 0 [Ok (-4); Err] 2
  /\ fst (Q [(1, Some 7, 4); (1, None, 4)] (dialed 0 0)) = [Ok 3; Ok 3]      (* not -4 *)
  /\ fst (Q [(1, Some 2000, 4); (1, None, 4)] (dialed 0 0)) = [Err; Err].
Proof.
  split; [vm_compute; reflexivity|]. split; [cbn; repeat split; congruence|]. split.
  - eapply lc_ok; [split; [reflexivity|discriminate]|reflexivity|reflexivity|].
    eapply lc_err; [split; [reflexivity|]|reflexivity|constructor]. intros l E. injection E as <-. reflexivity.
  - split; vm_compute; reflexivity.
Qed.
