(* Prop_Demo.v -- the demonstration channels (C166). *)
From Coq Require Import List Bool Arith Lia ZArith.
From Verif Require Import Base M_Chan S_Chan M_Demo.
Import ListNotations.
Open Scope list_scope.
Open Scope nat_scope.

Section C166.
  Context {V : Type} (emptyV oneV : V) (pack : list nat -> list V -> V) (num : nat -> V) (str : list Z -> V) (show : V -> list Z).
  Local Notation results := (results emptyV oneV pack).
  Local Notation move := (move oneV num str show).
  Local Notation moves := (moves oneV num str show).
  Definition stopped (s : demo V) : Prop := forall s', ~ move s s'.
  Definition all_done (s : demo V) (log : list (outcome V)) : Prop := drains_ s = false /\ todo s = [] /\ got s = log.

  (* ---------- source ---------- *)
  (* the operations on a source: values are taken or shown, it is closed at most once *)
  Definition reading (o : op V) : Prop := match o with Take _ | Show _ | CloseC _ => True | _ => False end.
  Definition reader (ops : list (op V)) : Prop := Forall reading ops /\ closes ops <= 1.
  (* the numbers 0 ... n-1 *)
  Definition numbers (n : nat) : list V := map num (seq 0 n).

  Definition left_ (g : gor V) : list V := match g with GPoll n i | GSend n i => map num (seq i (n - i)) | _ => [] end.
  Definition is_source (g : gor V) : Prop := match g with GSend n i => i < n | GEcho _ _ _ => False | _ => True end.
  Definition inv_source (total : list (outcome V)) (s : demo V) : Prop :=
    got s ++ (if drains_ s then Ok oneV :: results (todo s) [] else results (todo s) (left_ (gor_ s))) = total /\
    (data_closed s = true <-> gor_ s = GEnd) /\ (ctl_closed s = true -> drains_ s = true \/ gor_ s = GEnd) /\ (drains_ s = true -> ctl_closed s = true) /\
    is_source (gor_ s) /\ Forall reading (todo s) /\ closes (todo s) + (if ctl_closed s then 1 else 0) <= 1.
  Lemma results_nil_left : forall (g : gor V) ops, left_ g = [] -> results ops (left_ g) = results ops [].
  Proof. intros g ops ->. reflexivity. Qed.
  Lemma inv_source_move : forall total s s', inv_source total s -> move s s' -> inv_source total s'.
  Proof.
    intros total s s' (E & D & C & R & Sr & F & N) M. destruct M; unfold inv_source in *; cbn [drains_ todo got gor_ ctl_closed data_closed left_ is_source] in *.
    - replace (n - i) with 0 in E by lia. repeat split; auto; try discriminate; try (intros X; apply D in X; discriminate X); intros X; destruct (C X) as [|Y]; [auto|discriminate Y].
    - destruct (C eq_refl) as [->|Y]; [|discriminate Y]. repeat split; auto; try discriminate. intros X. apply D in X. discriminate X.
    - inversion F as [|? ? X]. destruct X.
    - repeat split; auto; try discriminate. intros X. apply D in X. discriminate X.
    - replace (n - i) with (S (n - S i)) in E by lia. cbn [seq map S_Chan.results] in E. rewrite <- app_assoc. inversion F; subst. repeat split; auto; try discriminate.
      intros X. destruct (C X) as [Y|Y]; discriminate Y.
    - replace (n - i) with (S (n - S i)) in E by lia. cbn [seq map S_Chan.results app] in *. rewrite <- app_assoc. repeat split; auto; try discriminate.
      intros X. destruct (C X) as [Y|Y]; discriminate Y.
    - repeat split; auto; try discriminate.
    - inversion F as [|? ? X]. destruct X.
    - contradiction.
    - contradiction.
    - contradiction.
    - contradiction.
    - repeat split; auto; try discriminate.
    - cbn [S_Chan.results] in E. destruct D as [D1 D2]. rewrite (D1 eq_refl) in *. cbn [left_] in *. rewrite <- app_assoc. inversion F; subst. repeat split; auto.
    - destruct D as [D1 D2]. rewrite (D1 eq_refl) in *. cbn [left_ S_Chan.results map app] in *. inversion F; subst. repeat split; auto.
    - inversion F; subst. unfold closes in N |- *. cbn [filter closing length S_Chan.results] in *. repeat split; auto; try lia; try apply D.
    - destruct D as [D1 D2]. rewrite (D1 eq_refl) in *. cbn [left_]. rewrite <- app_assoc. repeat split; auto.
  Qed.
  Lemma inv_moves : forall (I : demo V -> Prop), (forall s s', I s -> move s s' -> I s') -> forall s s', moves s s' -> I s -> I s'.
  Proof. intros J H s s' M. induction M as [s|s1 s2 s3 M IH Mv]; intros X; [exact X|]. exact (H _ _ (IH X) Mv). Qed.
  Lemma source_begin : forall n ops, reader ops -> inv_source (results ops (numbers n)) (begin (GPoll n 0) ops).
  Proof.
    intros n ops [F N]. unfold inv_source, begin. cbn [drains_ todo got gor_ ctl_closed data_closed left_ is_source app]. rewrite Nat.sub_0_r. repeat split; auto; try discriminate. lia.
  Qed.
  Lemma source_stop : forall total s, inv_source total s -> stopped s -> all_done s total /\ (ctl_closed s = true -> gor_ s = GEnd).
  Proof.
    intros total [d ops log g c1 c0] (E & D & C & R & Sr & F & N) ST. cbn [drains_ todo got gor_ ctl_closed data_closed] in *.
    assert (C0 : g = GClose -> c0 = false) by (intros ->; destruct c0; [|reflexivity]; destruct D as [D _]; discriminate (D eq_refl)).
    assert (G : match g with GClose | GPoll _ _ => False | _ => True end).
    { destruct g as [n i|n i|p b q| |]; auto.
      - destruct (Nat.le_gt_cases n i); [eapply ST; apply mv_end; assumption|]. destruct c1; eapply ST; [apply mv_cancel|apply mv_default]; assumption.
      - rewrite (C0 eq_refl) in ST. eapply ST. apply mv_close. }
    assert (D0 : d = false).
    { destruct d; [|reflexivity]. exfalso. destruct g as [n i|n i|p b q| |]; try contradiction.
      - destruct c0; [destruct D as [D _]; discriminate (D eq_refl)|]. eapply ST. apply mv_drop.
      - destruct D as [_ D]. rewrite (D eq_refl) in ST. eapply ST. apply mv_drained. }
    subst d. assert (T : ops = []).
    { destruct ops as [|o ops]; [reflexivity|exfalso]. inversion F as [|? ? X F']; subst. destruct o; try destruct X.
      - destruct g as [n i|n i|p b q| |]; try contradiction; [destruct c0; [destruct D as [D _]; discriminate (D eq_refl)|]; eapply ST; apply mv_take|]. destruct D as [_ D]. rewrite (D eq_refl) in ST. eapply ST. apply mv_take_eof.
      - destruct g as [n i|n i|p b q| |]; try contradiction; [destruct c0; [destruct D as [D _]; discriminate (D eq_refl)|]; eapply ST; apply mv_show|]. destruct D as [_ D]. rewrite (D eq_refl) in ST. eapply ST. apply mv_show_eof.
      - destruct c1; [unfold closes in N; cbn in N; lia|]. eapply ST. apply mv_main_close. }
    subst ops. cbn [S_Chan.results] in E. rewrite app_nil_r in E. split; [repeat split; assumption|]. intros X. destruct (C X) as [Y|Y]; [discriminate Y|exact Y].
  Qed.
  (* the numbers 0...n-1 come out in order, then the channel is closed; when it is closed before, the goroutine ends *)
  Theorem C166_source : forall n ops s, reader ops -> moves (begin (GPoll n 0) ops) s -> stopped s -> all_done s (results ops (numbers n)) /\ (closes ops = 1 -> gor_ s = GEnd).
  Proof.
    intros n ops s R M ST. assert (I : inv_source (results ops (numbers n)) s) by (eapply inv_moves; [apply inv_source_move|exact M|apply source_begin, R]).
    destruct (source_stop _ _ I ST) as (A & B). split; [exact A|]. intros Cl. apply B. clear B.
    (* the close has been executed *)
    assert (K : closes (todo s) + (if ctl_closed s then 1 else 0) = 1).
    { clear A I. assert (H : forall s s', closes (todo s) + (if ctl_closed s then 1 else 0) = 1 -> move s s' -> closes (todo s') + (if ctl_closed s' then 1 else 0) = 1).
      { intros u u' H Mv. destruct Mv; cbn [todo ctl_closed] in *; unfold closes in *; cbn [filter closing length] in *; lia. }
      eapply (inv_moves (fun s => closes (todo s) + (if ctl_closed s then 1 else 0) = 1)); [exact H|exact M|]. unfold begin. cbn [todo ctl_closed]. lia. }
    destruct A as (_ & A & _). rewrite A in K. unfold closes in K. cbn in K. destruct (ctl_closed s); [reflexivity|lia].
  Qed.
  (* nothing panics *)
  Theorem C166_source_safe : forall n ops s, reader ops -> moves (begin (GPoll n 0) ops) s -> ~ demo_crash s.
  Proof.
    intros n ops s R M X. assert (I : inv_source (results ops (numbers n)) s) by (eapply inv_moves; [apply inv_source_move|exact M|apply source_begin, R]).
    destruct X; destruct I as (E & D & C & Rr & Sr & F & N); cbn [drains_ todo got gor_ ctl_closed data_closed] in *.
    - unfold closes in N. cbn in N. lia.
    - inversion F as [|? ? Y]. destruct Y.
    - destruct D as [D _]. discriminate (D eq_refl).
  Qed.
  (* every schedule comes to an end *)
  Definition weight (s : demo V) : nat :=
    (match gor_ s with GPoll n i => 3 * (n - i) + 3 | GSend n i => 3 * (n - i) + 2 | GClose => 1 | _ => 0 end) + 2 * length (todo s) + (if drains_ s then 1 else 0).
  Lemma weight_down : forall total s s', inv_source total s -> move s s' -> weight s' < weight s.
  Proof. intros total s s' (E & D & C & R & Sr & F & N) M. destruct M; unfold weight; cbn [drains_ todo got gor_ ctl_closed data_closed is_source length] in *; try contradiction; lia. Qed.
  Theorem C166_source_ends : forall n ops, reader ops -> forall r : nat -> demo V, r 0 = begin (GPoll n 0) ops -> ~ forall k, move (r k) (r (S k)).
  Proof.
    intros n ops R r R0 H.
    assert (I : forall k, inv_source (results ops (numbers n)) (r k)) by (induction k as [|k IH]; [rewrite R0; apply source_begin, R|eapply inv_source_move; [exact IH|apply H]]).
    assert (W : forall k, weight (r k) + k <= weight (r 0)) by (induction k as [|k IH]; [lia|]; pose proof (weight_down _ _ _ (I k) (H k)); lia).
    specialize (W (S (weight (r 0)))). lia.
  Qed.
  (* Finding: a value that is sent to a source is a race: if the source looks at its control channel
     at the right time the value closes the channel; otherwise both wait for ever. *)
  Theorem C166_source_send_refuted : forall n v, 0 < n ->
    (exists s, moves (begin (GPoll n 0) [SendC 1 v; Take 1]) s /\ stopped s /\ all_done s [Ok v; Err]) /\
    (exists s, moves (begin (GPoll n 0) [SendC 1 v; Take 1]) s /\ stopped s /\ todo s = [SendC 1 v; Take 1] /\ got s = []).
  Proof.
    intros n v L. split.
    - exists (mkDemo false [] [Ok v; Err] GEnd false true). split; [|split; [|repeat split]].
      + eapply moves_step; [eapply moves_step; [eapply moves_step; [apply moves_refl|apply mv_told; exact L]|apply mv_close]|]. apply (mv_take_eof _ _ _ _ 1 [] [Ok v]).
      + intros s' M. inversion M.
    - exists (mkDemo false [SendC 1 v; Take 1] [] (GSend n 0) false false). split; [|split; [|split; reflexivity]].
      + eapply moves_step; [apply moves_refl|apply mv_default; exact L].
      + intros s' M. inversion M.
  Qed.

  (* ---------- echo ---------- *)
  (* the operations on an echo: values are sent and taken, the last operations may be a close and takes *)
  Definition talking (o : op V) : Prop := match o with Take _ | SendC _ _ => True | _ => False end.
  Inductive talk : list (op V) -> Prop :=
  | talk_open ops : Forall talking ops -> talk ops
  | talk_close ops c k : Forall talking ops -> talk (ops ++ CloseC c :: repeat (Take c) k).
  (* what they give: q are the values that have been sent and not yet taken *)
  Fixpoint echoed (p : list Z) (fresh : bool) (q : list V) (ops : list (op V)) : list (outcome V) :=
    match ops with
    | SendC _ v :: ops' => Ok v :: echoed p false (q ++ [v]) ops'
    | Take _ :: ops' =>
        match q with
        | v :: q' => Ok (str (p ++ show v)) :: echoed p false q' ops'
        | [] => Ok (str ((if fresh then [] else p) ++ empty_stack)) :: echoed p fresh [] ops'
        end
    | CloseC _ :: ops' => Ok oneV :: repeat Err (length ops')
    | _ => []
    end.
  Definition saying (p : list Z) (fresh : bool) (buf : list V) : list Z := match buf with v :: _ => p ++ show v | [] => (if fresh then [] else p) ++ empty_stack end.
  Definition echo_now (g : gor V) (p : list Z) (fresh : bool) (q : list V) : Prop := g = GEcho p q (saying p fresh q) /\ (fresh = true -> q = []).
  Definition inv_echo (p : list Z) (total : list (outcome V)) (s : demo V) : Prop :=
    talk (todo s) /\
    if ctl_closed s then
      (exists k c, todo s = repeat (Take c) k /\ (got s ++ (if drains_ s then [Ok oneV] else []) ++ repeat Err k = total)) /\
      (data_closed s = true <-> gor_ s = GEnd) /\ (drains_ s = true \/ gor_ s = GEnd) /\ (match gor_ s with GPoll _ _ | GSend _ _ => False | _ => True end)
    else drains_ s = false /\ data_closed s = false /\ exists fresh q, echo_now (gor_ s) p fresh q /\ got s ++ echoed p fresh q (todo s) = total.
  Lemma put_saying : forall p fresh q v, (fresh = true -> q = []) -> echo_put show p q (saying p fresh q) v = GEcho p (q ++ [v]) (saying p false (q ++ [v])).
  Proof. intros p fresh q v F. unfold echo_put. destruct q as [|w q]; [reflexivity|]. cbn [app length]. replace (S (length (q ++ [v])) =? 1) with false; [reflexivity|]. rewrite app_length. cbn. symmetry. apply Nat.eqb_neq. lia. Qed.
  Lemma get_saying : forall p fresh q, (fresh = true -> q = []) -> echo_get show p q (saying p fresh q) = match q with [] => GEcho p [] (saying p fresh []) | _ :: q' => GEcho p q' (saying p false q') end.
  Proof. intros p fresh q F. unfold echo_get. destruct q as [|w [|v q]]; reflexivity. Qed.
  Lemma talk_tail : forall o ops, talk (o :: ops) -> talk ops.
  Proof.
    intros o ops T. inversion T as [ops' F|ops' c k F E]; subst; [apply talk_open; inversion F; assumption|].
    destruct ops' as [|o' ops']; [injection E as <- <-|injection E as <- <-].
    - apply talk_open. apply Forall_forall. intros x Hx. apply repeat_spec in Hx. subst. exact I.
    - apply talk_close. inversion F; assumption.
  Qed.
  Lemma talk_closed : forall c ops, talk (CloseC c :: ops) -> exists k, ops = repeat (Take c) k.
  Proof.
    intros c ops T. inversion T as [ops' F|ops' c' k F E]; subst; [inversion F as [|? ? X]; destruct X|].
    destruct ops' as [|o' ops']; [injection E as <- <-; eauto|]. injection E as -> _. inversion F as [|? ? X]. destruct X.
  Qed.
  Lemma talk_no : forall o ops, talk (o :: ops) -> match o with Take _ | SendC _ _ | CloseC _ => True | _ => False end.
  Proof. intros o ops T. inversion T as [ops' F|ops' c k F E]; subst; [inversion F as [|? ? X]; destruct o; try destruct X; exact I|]. destruct ops'; injection E as <- <-; [exact I|]. inversion F as [|? ? X]; destruct o0; try destruct X; exact I. Qed.
  Lemma repeat_take_inv : forall k c o (ops : list (op V)), o :: ops = repeat (Take c) k -> exists k', k = S k' /\ o = Take c /\ ops = repeat (Take c) k'.
  Proof. intros [|k] c o ops E; [discriminate E|]. injection E as -> ->. eauto. Qed.
  Lemma inv_echo_move : forall p total s s', inv_echo p total s -> move s s' -> inv_echo p total s'.
  Proof.
    intros p total s s' (T & H) M. destruct M; unfold inv_echo; cbn [drains_ todo got gor_ ctl_closed data_closed] in *.
    - destruct c1; [destruct H as (_ & _ & _ & [])|]. destruct H as (_ & _ & f & q & (X & _) & _). discriminate X.
    - destruct H as (_ & _ & _ & []).
    - destruct H as (_ & _ & f & q & (X & _) & _). discriminate X.
    - destruct H as (_ & _ & f & q & (X & _) & _). discriminate X.
    - destruct c1; [destruct H as (_ & _ & _ & [])|]. destruct H as (_ & _ & f & q & (X & _) & _). discriminate X.
    - destruct (talk_no _ _ T).
    - destruct c1; [destruct H as (_ & _ & _ & [])|]. destruct H as (_ & _ & f & q & (X & _) & _). discriminate X.
    - (* hear *) destruct H as (_ & C0 & f & q & (X & Y) & E). injection X as -> -> ->. split; [eapply talk_tail, T|]. split; [reflexivity|]. split; [exact C0|]. exists false, (q ++ [v]). rewrite put_saying by exact Y. split; [split; [reflexivity|discriminate]|].
      rewrite <- app_assoc. exact E.
    - split; [exact T|]. destruct H as (A & B & C & _). destruct C as [C|C]; [|discriminate C]. repeat split; auto; try discriminate. intros X. apply B in X. discriminate X.
    - (* take *) destruct c1.
      + exfalso. destruct H as (_ & _ & [X|X] & _); discriminate X.
      + destruct H as (_ & C0 & f & q & (X & Y) & E). injection X as -> -> ->. split; [eapply talk_tail, T|]. split; [reflexivity|]. split; [exact C0|]. rewrite get_saying by exact Y. cbn [echoed] in E.
        destruct q as [|v q]; [exists f, []|exists false, q]; (split; [split; [reflexivity|auto; discriminate]|rewrite <- app_assoc; exact E]).
    - destruct (talk_no _ _ T).
    - (* drop *) destruct c1; [|destruct H as (X & _); discriminate X]. split; [exact T|]. destruct H as (A & B & C & _). assert (G : exists q w, echo_get show p0 buf s = GEcho p0 q w) by (unfold echo_get; destruct (1 <? length buf); [eauto|]; destruct (length buf =? 1); eauto). destruct G as (q & w & ->).
      repeat split; auto; try discriminate.
    - (* close *) destruct c1; [|destruct H as (_ & _ & f & q & (X & _) & _); discriminate X]. split; [exact T|]. destruct H as (A & B & C & _). repeat split; auto.
    - (* eof *) destruct c1; [|destruct H as (_ & X & _); discriminate X]. split; [eapply talk_tail, T|]. destruct H as ((k & c' & E1 & E2) & B & C & G). destruct (repeat_take_inv _ _ _ _ E1) as (k' & -> & _ & ->).
      split; [|auto]. exists k', c'. split; [reflexivity|]. cbn [repeat app] in *. rewrite <- app_assoc. exact E2.
    - destruct (talk_no _ _ T).
    - (* main close *) destruct H as (_ & C0 & f & q & (X & Y) & E). destruct (talk_closed _ _ T) as (k & ->). split; [eapply talk_tail, T|]. rewrite X. split; [|repeat split; auto; try discriminate; congruence].
      exists k, c. split; [reflexivity|]. cbn [echoed] in E. rewrite repeat_length in E. exact E.
    - (* drained *) destruct c1; [|destruct H as (X & _); discriminate X]. split; [exact T|]. destruct H as ((k & c' & E1 & E2) & B & C & G). repeat split; auto; try apply B. exists k, c'. split; [exact E1|]. rewrite <- app_assoc. exact E2. right. apply B. reflexivity.
  Qed.
  Lemma echo_begin : forall p ops, talk ops -> inv_echo p (echoed p true [] ops) (begin (GEcho p [] empty_stack) ops).
  Proof. intros p ops T. split; [exact T|]. cbn. split; [reflexivity|]. split; [reflexivity|]. exists true, []. split; [split; [reflexivity|auto]|reflexivity]. Qed.
  (* values that are sent come back, in order, as strings with the prefix; when there are none it is the text: empty stack *)
  Theorem C166_echo : forall p ops s, talk ops -> moves (begin (GEcho p [] empty_stack) ops) s -> stopped s -> all_done s (echoed p true [] ops).
  Proof.
    intros p ops s T M ST. assert (J : inv_echo p (echoed p true [] ops) s) by (eapply inv_moves; [apply inv_echo_move|exact M|apply echo_begin, T]). clear M T.
    destruct s as [d todo_ log g c1 c0], J as (T & H). cbn [drains_ todo got gor_ ctl_closed data_closed] in *. destruct c1.
    - destruct H as ((k & c & -> & E) & B & C & G). assert (GE : g = GEnd).
      { destruct g as [n i|n i|p' b q| |]; try contradiction; [exfalso; eapply ST; apply mv_echo_cancel| |reflexivity]. destruct c0; [destruct B as [B _]; discriminate (B eq_refl)|]. exfalso. eapply ST. apply mv_close. }
      subst g. destruct B as [_ B]. rewrite (B eq_refl) in ST. destruct d; [exfalso; eapply ST; apply mv_drained|]. destruct k as [|k]; [|exfalso; eapply ST; apply mv_take_eof].
      cbn in E. rewrite app_nil_r in E. repeat split; auto.
    - destruct H as (-> & -> & f & q & (-> & Y) & E). destruct todo_ as [|o todo_].
      + cbn in E. rewrite app_nil_r in E. repeat split; auto.
      + exfalso. pose proof (talk_no _ _ T) as X. destruct o; try destruct X; eapply ST; [apply mv_echo_take|apply mv_main_close|apply mv_hear].
  Qed.
  Theorem C166_echo_safe : forall p ops s, talk ops -> moves (begin (GEcho p [] empty_stack) ops) s -> ~ demo_crash s.
  Proof.
    intros p ops s T M X. assert (J : inv_echo p (echoed p true [] ops) s) by (eapply inv_moves; [apply inv_echo_move|exact M|apply echo_begin, T]).
    destruct X; destruct J as (TT & H); cbn [drains_ todo got gor_ ctl_closed data_closed] in *.
    - destruct H as ((k & c' & E1 & _) & _). destruct (repeat_take_inv _ _ _ _ E1) as (? & _ & X & _). discriminate X.
    - destruct H as ((k & c' & E1 & _) & _). destruct (repeat_take_inv _ _ _ _ E1) as (? & _ & X & _). discriminate X.
    - destruct c1; [destruct H as (_ & [B _] & _); discriminate (B eq_refl)|destruct H as (_ & X & _); discriminate X].
  Qed.
  (* values are sent, then as many and k more are taken *)
  Theorem C166_echo_fifo : forall p vs k, echoed p true [] (map (SendC 1) vs ++ repeat (Take 1) (length vs + k)) =
    map Ok vs ++ map (fun v => Ok (str (p ++ show v))) vs ++ repeat (Ok (str ((if length vs =? 0 then [] else p) ++ empty_stack))) k.
  Proof.
    intros p vs k.
    assert (A : forall vs q f rest, echoed p f q (map (SendC 1) vs ++ rest) = map Ok vs ++ echoed p (f && (length vs =? 0)) (q ++ vs) rest).
    { clear. induction vs as [|v vs IH]; intros q f rest; cbn [map app]; [rewrite andb_true_r, app_nil_r; reflexivity|]. cbn [echoed length Nat.eqb]. rewrite IH. rewrite andb_false_r, <- app_assoc. reflexivity. }
    rewrite A. cbn [app]. f_equal.
    assert (B : forall k f, echoed p f [] (repeat (Take 1) k) = repeat (Ok (str ((if f then [] else p) ++ empty_stack))) k) by (clear; induction k as [|k IH]; intros f; [reflexivity|]; cbn [repeat echoed]; rewrite IH; reflexivity).
    destruct vs as [|v vs]; [apply B|]. cbn [andb length Nat.eqb Nat.add repeat echoed map app]. f_equal.
    induction vs as [|w vs IH]; [apply B|]. cbn [length Nat.add repeat echoed map app]. f_equal. exact IH.
  Qed.
  (* from every state the operations can be completed *)
  Theorem C166_echo_can_end : forall p ops s, talk ops -> moves (begin (GEcho p [] empty_stack) ops) s -> exists s', moves s s' /\ all_done s' (echoed p true [] ops).
  Proof.
    intros p ops s T M. assert (J : inv_echo p (echoed p true [] ops) s) by (eapply inv_moves; [apply inv_echo_move|exact M|apply echo_begin, T]). clear M T.
    assert (TR : forall a b c, move a b -> moves b c -> moves a c). { intros a b c X Y. induction Y as [|s1 s2 s3 _ IH Z]; [eapply moves_step; [apply moves_refl|exact X]|eapply moves_step; [exact (IH X)|exact Z]]. }
    set (w := fun s : demo V => 2 * length (todo s) + (if drains_ s then 1 else 0) + match gor_ s with GEcho _ _ _ => if ctl_closed s then 2 else 3 | GClose => 1 | _ => 0 end).
    remember (w s) as n eqn:En. revert s J En. induction n as [n IH] using lt_wf_ind. intros s J En.
    assert (G : forall s', move s s' -> w s' < w s -> exists s', moves s s' /\ all_done s' (echoed p true [] ops)).
    { intros s' Mv L. destruct (IH (w s') ltac:(lia) s' (inv_echo_move _ _ _ _ J Mv) eq_refl) as (s2 & M2 & A2). exists s2. split; [eapply TR; eassumption|exact A2]. }
    destruct s as [d todo_ log g c1 c0], J as (T & H). cbn [drains_ todo got gor_ ctl_closed data_closed] in *. destruct c1.
    - destruct H as ((k & c & -> & E) & B & C & Q). destruct g as [n' i|n' i|p' b q| |]; try contradiction.
      + eapply G; [apply mv_echo_cancel|]. unfold w. cbn. lia.
      + destruct c0; [destruct B as [B _]; discriminate (B eq_refl)|]. eapply G; [apply mv_close|]. unfold w. cbn. lia.
      + destruct B as [_ B]. rewrite (B eq_refl) in *. destruct d; [eapply G; [apply mv_drained|]; unfold w; cbn; lia|]. destruct k as [|k]; [|eapply G; [apply (mv_take_eof _ _ _ _ c (repeat (Take c) k))|]; unfold w; cbn [repeat length drains_ todo gor_ ctl_closed]; lia].
        eexists. split; [apply moves_refl|]. cbn in E. rewrite app_nil_r in E. repeat split; auto.
    - destruct H as (-> & -> & f & q & (-> & Y) & E). destruct todo_ as [|o todo_]; [eexists; split; [apply moves_refl|]; cbn in E; rewrite app_nil_r in E; repeat split; auto|].
      pose proof (talk_no _ _ T) as X. destruct o; try destruct X; (eapply G; [first [apply mv_echo_take|apply mv_main_close|apply mv_hear]|]; unfold w; cbn [drains_ todo gor_ ctl_closed length]).
      + rewrite get_saying by exact Y. destruct q; lia.
      + lia.
      + rewrite put_saying by exact Y. lia.
  Qed.
  (* Finding: closing an echo need not come to an end: as long as the main program drains it, the select
     may choose to send again; only the random choice of Go's select ends it. *)
  Theorem C166_echo_close_refuted : forall p, exists r : nat -> demo V, r 0 = begin (GEcho p [] empty_stack) [CloseC 1] /\ forall k, move (r k) (r (S k)).
  Proof.
    intros p. exists (fun k => match k with 0 => begin (GEcho p [] empty_stack) [CloseC 1] | _ => mkDemo true [] [] (GEcho p [] empty_stack) true false end). split; [reflexivity|].
    intros [|k]; [apply mv_main_close|]. exact (mv_echo_drop oneV num str show p [] empty_stack [] [] true).
  Qed.
  (* the arguments *)
  Theorem C166_arguments : (forall R g, @source_call V R = Ok g <-> exists n, (0 < n)%Z /\ R = Some n /\ g = GPoll (Z.to_nat n) 0) /\
    (forall R g, @echo_call V R = Ok g <-> exists p, p <> [] /\ R = Some p /\ g = GEcho p [] empty_stack).
  Proof.
    split; intros R g; split.
    - destruct R as [n|]; cbn; [|discriminate]. destruct (Z.leb_spec n 0); [discriminate|]. intros E. injection E as <-. eauto.
    - intros (n & L & -> & ->). cbn. destruct (Z.leb_spec n 0); [lia|reflexivity].
    - destruct R as [[|x p]|]; cbn; try discriminate. intros E. injection E as <-. exists (x :: p). repeat split. discriminate.
    - intros (p & N & -> & ->). destruct p; [congruence|reflexivity].
  Qed.
End C166.
Print Assumptions C166_source. Print Assumptions C166_source_safe. Print Assumptions C166_source_ends. Print Assumptions C166_source_send_refuted.
Print Assumptions C166_echo. Print Assumptions C166_echo_safe. Print Assumptions C166_echo_fifo. Print Assumptions C166_echo_can_end. Print Assumptions C166_echo_close_refuted. Print Assumptions C166_arguments.

(* s←go→source 3, three takes; the first is 0.  e←go→echo ">": 7 is sent, two takes *)
Definition ex_show (z : Z) : list Z := [z].
Definition ex_str (l : list Z) : Z := hd 0%Z (rev l).
Example C166_example :
  (exists s, moves 1%Z Z.of_nat ex_str ex_show (begin (GPoll 2 0) [Take 1; CloseC 1]) s /\ stopped 1%Z Z.of_nat ex_str ex_show s /\ all_done s [Ok 0%Z; Ok 1%Z] /\ reader [@Take Z 1; CloseC 1]) /\
  (exists s, moves 1%Z Z.of_nat ex_str ex_show (begin (GEcho [62%Z] [] empty_stack) [SendC 1 7%Z; Take 1]) s /\ all_done s [Ok 7%Z; Ok 7%Z] /\ talk [SendC 1 7%Z; Take 1]).
Proof.
  split.
  - exists (mkDemo false [] [Ok 0%Z; Ok 1%Z] GEnd true true). split; [|split; [|split; [repeat split|]]].
    + eapply moves_step; [|apply (mv_drained 1%Z Z.of_nat ex_str ex_show [] [Ok 0%Z])]. eapply moves_step; [|apply mv_close]. eapply moves_step; [|apply (mv_cancel _ _ _ _ 2 1); lia].
      eapply moves_step; [|apply mv_main_close]. eapply moves_step; [|apply (mv_take 1%Z Z.of_nat ex_str ex_show 2 0 1 _ [])]. eapply moves_step; [apply moves_refl|]. apply mv_default. lia.
    + intros s' M. inversion M.
    + split; [repeat constructor|cbn; lia].
  - eexists. split; [|split].
    + eapply moves_step; [eapply moves_step; [apply moves_refl|apply mv_hear]|]. apply mv_echo_take.
    + repeat split.
    + apply talk_open. repeat constructor.
Qed.
