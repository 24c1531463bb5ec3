(* P_Heap2.v -- what assignment does to the heap. *)
From Verif Require Import Base Eff M_Heap S_Heap P_Heap.
From Coq Require Import List ZArith Bool Lia.
Import ListNotations.

Section P.
  Context {A U : Type} {BR : ByRef U} (conv : U -> A -> option A) (origin : Z).
  Local Notation hval := (hval A). Local Notation hdr := (hdr A U). Local Notation heap := (heap A U). Local Notation cell := (cell A U).
  Local Notation tree := (tree A U). Local Notation mfun := (mfun A U).
  Implicit Types (h : heap) (v w : hval) (t : tree) (ls : list nat).
  Open Scope nat_scope.

  Lemma In_upd_nat {X} (l : list X) i x k : In k (upd_nat l i x) -> In k l \/ k = x.
  Proof.
    revert i. induction l as [|a l IH]; intros i; cbn; [auto|].
    destruct i; cbn; intros [<-|H]; auto. destruct (IH _ H); auto.
  Qed.
  Lemma In_zupd {X} (l : list X) i x k : In k (zupd l i x) -> In k l \/ k = x.
  Proof. unfold zupd. destruct (i <? 0)%Z; [auto|]. apply In_upd_nat. Qed.
  Lemma zat_In {X} (l : list X) i x : zat l i = Ok x -> In x l.
  Proof. intros H. apply zat_ok in H. eapply znth_In; exact H. Qed.
  Lemma ebind_inv {X Y} (m : H A U X) (k : X -> H A U Y) h o h' : ebind m k h = (o, h') ->
    (exists a h1, m h = (Ok a, h1) /\ k a h1 = (o, h')) \/ (m h = (Err, h') /\ o = Err) \/ (m h = (Panic, h') /\ o = Panic).
  Proof.
    unfold ebind. destruct (m h) as [[a| |] h1]; intros E.
    - left. exists a, h1. auto.
    - right. left. injection E as <- <-. auto.
    - right. right. injection E as <- <-. auto.
  Qed.

  Section Op.
    Context (b : nat) (W : nat -> Prop) (Hb : forall x, b <= x -> W x).
    Local Notation change := (change b W).

    (* a cell and its parts *)
    Lemma owned_cell h l : owned h W (HRef l) -> exists c ts ls, nth_error h l = Some c /\ reads_all h (kids c) ts ls /\
      W l /\ (forall x, In x ls -> W x) /\ ~ In l ls /\ l < length h /\ by_reference (hdof c) = false.
    Proof.
      intros (t & ls & R & HW). inversion R as [|l0 c ts ls0 Hc Hd_Hc Ha]; subst. exists c, ts, ls0.
      split; [exact Hc|]. split; [exact Ha|]. split; [apply HW; left; reflexivity|]. split; [intros x Hx; apply HW; right; exact Hx|].
      split; [eapply reads_acyclic; eassumption|]. split; [apply nth_error_Some; congruence|exact Hd_Hc].
    Qed.
    Lemma owned_kid h l c k : owned h W (HRef l) -> nth_error h l = Some c -> In k (kids c) -> owned h W k.
    Proof.
      intros Ho Hc Hi. destruct (owned_cell _ _ Ho) as (c' & ts & ls & Hc' & Ha & _ & HW & _). rewrite Hc in Hc'. injection Hc' as <-.
      destruct (reads_all_In _ _ _ _ _ Ha Hi) as (t & l0 & R & I). exists t, l0. split; [exact R|]. intros x Hx. apply HW, I, Hx.
    Qed.
    Lemma value_kid h l c k : is_value h (HRef l) -> nth_error h l = Some c -> In k (kids c) -> is_value h k.
    Proof.
      intros (t & ls & R) Hc Hi. inversion R as [|l0 c' ts ls0 Hc' Hd_Hc' Ha]; subst. rewrite Hc in Hc'. injection Hc' as <-.
      destruct (reads_all_In _ _ _ _ _ Ha Hi) as (t & l1 & R1 & _). exists t, l1. exact R1.
    Qed.
    (* a value that can be put into the cell l *)
    Definition fits h l v : Prop := exists c ts ls tv lv, nth_error h l = Some c /\ reads_all h (kids c) ts ls /\
      reads h v tv lv /\ ~ In l lv /\ forall x, In x lv -> In x ls \/ b <= x.
    Lemma fits_new h l v tv lv : owned h W (HRef l) -> reads h v tv lv -> ~ In l lv -> (forall x, In x lv -> b <= x) -> fits h l v.
    Proof.
      intros Ho R N F. destruct (owned_cell _ _ Ho) as (c & ts & ls & Hc & Ha & _). exists c, ts, ls, tv, lv. auto 10.
    Qed.
    (* writing a fitting value to a cell *)
    Lemma write_fits h l v i hd' : by_reference hd' = false -> owned h W (HRef l) -> fits h l v ->
      forall c, nth_error h l = Some c -> change h (hupd h l (mkCell hd' (zupd (kids c) i v))).
    Proof.
      intros Hbr Ho (c0 & ts & ls & tv & lv & Hc0 & Ha & Rv & Nv & Fv) c Hc. rewrite Hc in Hc0. injection Hc0 as <-.
      destruct (owned_cell _ _ Ho) as (c' & ts' & ls' & Hc' & Ha' & Wl & Wx & Nl & _). rewrite Hc in Hc'. injection Hc' as <-.
      apply (change_write b W h l c ts ls); auto. cbn [kids]. intros k Hk. apply In_zupd in Hk as [Hk| ->].
      - destruct (reads_all_In _ _ _ _ _ Ha Hk) as (tk & lk & Rk & Ik). exists tk, lk. split; [exact Rk|]. split; [|auto].
        destruct (proj2 (reads_det h) _ _ _ Ha _ _ Ha') as [-> ->]. auto.
      - exists tv, lv. auto.
    Qed.
    (* what is kept outside of l *)
    Definition only h h' l : Prop := forall x, x < length h -> x <> l -> nth_error h' x = nth_error h x.

    Lemma arr_set_ok h l i v o h' : owned h W (HRef l) -> fits h l v -> arr_set conv l i v h = (o, h') -> change h h' /\ only h h' l.
    Proof.
      intros Ho Hf E. destruct (owned_cell _ _ Ho) as (c & ts & ls & Hc & Ha & Wl & Wx & Nl & Ll & Hbr).
      unfold arr_set, ebind, cell_at in E. rewrite Hc in E.
      assert (Hsame : change h h /\ only h h l) by (split; [apply change_refl|intros x _ _; reflexivity]).
      destruct (hdof c) as [u ds| |keys] eqn:Eh; try (injection E as <- <-; exact Hsame).
      destruct ((i <? 0)%Z || (zlen (kids c) <=? i)%Z); [injection E as <- <-; exact Hsame|].
      destruct (setv conv u v) as [v'|] eqn:Ev; [|injection E as <- <-; exact Hsame].
      unfold write in E. injection E as <- <-. split; [|intros x _ Hx; apply hupd_neq; exact Hx].
      apply write_fits; auto. unfold setv in Ev. destruct u as [u|]; [|injection Ev as <-; exact Hf].
      destruct v as [a|]; [|discriminate]. destruct (conv u a) as [a'|]; [|discriminate]. injection Ev as <-.
      exists c, ts, ls, (Leaf a'), []. split; [exact Hc|]. split; [exact Ha|]. split; [constructor|]. split; [intros []|intros x []].
    Qed.

    Definition fok (f : option mfun) : Prop := match f with Some f => builds f | None => True end.
    Definition res_ok h h' l (o : outcome nat) : Prop :=
      change h h' /\ only h h' l /\ forall l', o = Ok l' -> owned h' W (HRef l') /\ (l' = l \/ length h <= l').
    Lemma set_upgrade_ok h l i v o h' : b <= length h -> owned h W (HRef l) -> fits h l v ->
      (fun h => match arr_set conv l i v h with
             | (Ok _, h') => (Ok l, h')
             | (Err, h') => (let! l' := upgrade l in let! _ := arr_set conv l' i v in eret l') h'
             | (Panic, h') => (Panic, h')
             end) h = (o, h') -> res_ok h h' l o.
    Proof.
      intros HbL Ho Hf E. cbn beta in E. destruct (arr_set conv l i v h) as [[[]| |] h1] eqn:E1.
      - destruct (arr_set_ok _ _ _ _ _ _ Ho Hf E1) as [C O]. injection E as <- <-. split; [exact C|]. split; [exact O|].
        intros l' El. injection El as <-. split; [|auto]. eapply change_owned; eassumption.
      - (* the error left the heap as it was *)
        assert (h1 = h) as ->.
        { clear - E1. unfold arr_set, ebind, cell_at in E1. destruct (nth_error h l) as [c|]; [|discriminate].
          destruct (hdof c); try discriminate. destruct ((i <? 0)%Z || (zlen (kids c) <=? i)%Z); [injection E1 as <-; reflexivity|].
          destruct (setv conv u v); [discriminate|]. injection E1 as <-. reflexivity. }
        destruct (owned_cell _ _ Ho) as (c & ts & ls & Hc & Ha & Wl & Wx & Nl & Ll & Hbr).
        destruct Hf as (c0 & ts0 & ls0 & tv & lv & Hc0 & Ha0 & Rv & Nv & Fv). rewrite Hc in Hc0. injection Hc0 as <-.
        destruct (proj2 (reads_det h) _ _ _ Ha _ _ Ha0) as [-> ->].
        unfold upgrade, ebind at 1 2, cell_at in E. rewrite Hc in E.
        assert (Hsame : res_ok h h l Panic).
        { split; [apply change_refl|]. split; [intros x _ _; reflexivity|discriminate]. }
        destruct (hdof c) as [u ds| |keys] eqn:Eh; try (injection E as <- <-; exact Hsame).
        unfold alloc in E. set (h2 := h ++ [mkCell (HArr None ds) (kids c)]) in *.
        assert (Hn : nth_error h2 (length h) = Some (mkCell (HArr None ds) (kids c))).
        { unfold h2. rewrite nth_error_app2, Nat.sub_diag by lia. reflexivity. }
        assert (Ha2 : reads_all h2 (kids c) ts ls) by (apply reads_all_ext; exact Ha).
        assert (Ho2 : owned h2 W (HRef (length h))).
        { exists (Node (HArr None ds) ts), (length h :: ls). split.
          - change (HArr None ds) with (hdof (mkCell (@HArr A U None ds) (kids c))). econstructor; [exact Hn|reflexivity|exact Ha2].
          - intros x [<-|Hx]; [apply Hb; lia|apply Wx, Hx]. }
        assert (Hf2 : fits h2 (length h) v).
        { exists (mkCell (HArr None ds) (kids c)), ts, ls, tv, lv. split; [exact Hn|]. split; [exact Ha2|]. split; [apply reads_ext; exact Rv|].
          split; [|exact Fv]. intros Hi. apply (proj1 (reads_lt h) _ _ _ Rv) in Hi. lia. }
        assert (C1 : change h h2) by apply change_ext.
        assert (O1 : only h h2 l).
        { intros x Hx _. unfold h2. apply nth_error_app1, Hx. }
        unfold ebind in E. destruct (arr_set conv (length h) i v h2) as [o2 h3] eqn:E2.
        destruct (arr_set_ok _ _ _ _ _ _ Ho2 Hf2 E2) as [C2 O2].
        assert (Hall : change h h3 /\ only h h3 l).
        { split; [eapply change_trans; eassumption|]. intros x Hx Hl. rewrite O2; [apply O1; assumption| |lia].
          unfold h2. rewrite app_length. cbn. lia. }
        destruct o2 as [[]| |]; injection E as <- <-; (split; [exact (proj1 Hall)|]; split; [exact (proj2 Hall)|]); intros l' El; try discriminate.
        injection El as <-. split; [|lia]. eapply change_owned; eassumption.
      - destruct (arr_set_ok _ _ _ _ _ _ Ho Hf E1) as [C O]. injection E as <- <-. split; [exact C|]. split; [exact O|]. discriminate.
    Qed.
    Lemma res_id h l o : (forall l', o = Ok l' -> l' = l /\ owned h W (HRef l)) -> res_ok h h l o.
    Proof.
      intros H. split; [apply change_refl|]. split; [intros x _ _; reflexivity|]. intros l' El. destruct (H l' El) as [-> Ho]. auto.
    Qed.

    Lemma modAssign_ok f h l i v tv lv o h' : b <= length h -> fok f -> owned h W (HRef l) ->
      reads h v tv lv -> ~ In l lv -> (forall x, In x lv -> b <= x) ->
      modAssign conv f l i v h = (o, h') -> res_ok h h' l o.
    Proof.
      intros HbL Hf Ho Rv Nv Fv E. unfold modAssign in E.
      destruct (i =? -1)%Z. { injection E as <- <-. apply res_id. intros l' El. injection El as <-. auto. }
      destruct f as [f|].
      2:{ unfold ebind at 1, eret at 1 in E. eapply set_upgrade_ok; [exact HbL|exact Ho| |exact E]. eapply fits_new; eassumption. }
      destruct (owned_cell _ _ Ho) as (c & ts & ls & Hc & Ha & Wl & Wx & Nl & Ll & Hbr).
      apply ebind_inv in E.
      assert (Hcall : forall o1 h1, (let! c := cell_at l in if (i <? 0)%Z || (zlen (kids c) <=? i)%Z then efail else let! x := elift (zat (kids c) i) in f x v) h = (o1, h1) ->
        exists hx, h1 = h ++ hx /\ forall r, o1 = Ok r -> fits h1 l r).
      { intros o1 h1 E1. unfold ebind at 1, cell_at in E1. rewrite Hc in E1.
        destruct ((i <? 0)%Z || (zlen (kids c) <=? i)%Z). { injection E1 as <- <-. exists []. rewrite app_nil_r. split; [reflexivity|discriminate]. }
        unfold ebind, elift in E1. destruct (zat (kids c) i) as [x| |] eqn:Ex.
        2,3: injection E1 as <- <-; exists []; rewrite app_nil_r; (split; [reflexivity|discriminate]).
        apply zat_In in Ex. destruct (reads_all_In _ _ _ _ _ Ha Ex) as (tx & lx & Rx & Ix).
        destruct (Hf h x v tx lx tv lv Rx Rv) as (o2 & hx & E2 & Hr). rewrite E2 in E1. injection E1 as <- <-.
        exists hx. split; [reflexivity|]. intros r Er. destruct (Hr r Er) as (tr & lr & Rr & Ir).
        exists c, ts, ls, tr, lr. split; [rewrite nth_error_app1 by exact Ll; exact Hc|]. split; [apply reads_all_ext; exact Ha|]. split; [exact Rr|]. split.
        - intros Hi. destruct (Ir l Hi) as [Hi'|[Hi'|Hi']]; [lia| |auto]. apply Nl, Ix, Hi'.
        - intros y Hy. destruct (Ir y Hy) as [Hi'|[Hi'|Hi']]; [right; lia|left; apply Ix, Hi'|right; apply Fv, Hi']. }
      destruct E as [(v' & h1 & E1 & E2)|[[E1 ->]|[E1 ->]]].
      - destruct (Hcall _ _ E1) as (hx & -> & Hfit).
        assert (C1 : change h (h ++ hx)) by apply change_ext.
        assert (R : res_ok (h ++ hx) h' l o).
        { eapply set_upgrade_ok; [rewrite app_length; lia|eapply change_owned; eassumption|apply Hfit; reflexivity|exact E2]. }
        destruct R as (C2 & O2 & R2). split; [eapply change_trans; eassumption|]. split.
        + intros x Hx Hl. rewrite O2; [apply nth_error_app1; exact Hx|rewrite app_length; lia|exact Hl].
        + intros l' El. destruct (R2 l' El) as [Hw [->|Hl]]; split; auto. right. rewrite app_length in Hl. lia.
      - destruct (Hcall _ _ E1) as (hx & -> & _). split; [apply change_ext|]. split; [|discriminate]. intros x Hx _. apply nth_error_app1, Hx.
      - destruct (Hcall _ _ E1) as (hx & -> & _). split; [apply change_ext|]. split; [|discriminate]. intros x Hx _. apply nth_error_app1, Hx.
    Qed.

    Definition arr_ok h h' (o : outcome nat) : Prop := change h h' /\ forall l', o = Ok l' -> owned h' W (HRef l').
    Lemma arr_ok_trans h h1 h2 o : change h h1 -> arr_ok h1 h2 o -> arr_ok h h2 o.
    Proof. intros C [C2 R]. split; [eapply change_trans; eassumption|exact R]. Qed.
    Lemma assign_scalar_ok f ds : fok f -> forall h l v tv lv o h', b <= length h -> owned h W (HRef l) ->
      reads h v tv lv -> ~ In l lv -> (forall x, In x lv -> b <= x) ->
      assign_scalar conv f l ds v h = (o, h') -> arr_ok h h' o.
    Proof.
      intros Hf. induction ds as [|d ds IH]; intros h l v tv lv o h' HbL Ho Rv Nv Fv E; cbn [assign_scalar] in E.
      - injection E as <- <-. split; [apply change_refl|]. intros l' El. injection El as <-. exact Ho.
      - apply ebind_inv in E. destruct E as [(l1 & h1 & E1 & E2)|[[E1 ->]|[E1 ->]]].
        + destruct (modAssign_ok _ _ _ _ _ _ _ _ _ HbL Hf Ho Rv Nv Fv E1) as (C & O & R). destruct (R l1 eq_refl) as [Ho1 Hl1].
          eapply arr_ok_trans; [exact C|]. eapply (IH h1 l1 v tv lv); try eassumption.
          * pose proof (ch_len _ _ _ _ C). lia.
          * apply (proj1 (reads_frame h h1) _ _ _ Rv). intros x Hx. apply O; [eapply (proj1 (reads_lt h)); eassumption|].
            intros ->. auto.
          * intros Hi. destruct Hl1 as [->|Hl1]; [auto|]. apply (proj1 (reads_lt h) _ _ _ Rv) in Hi. lia.
        + destruct (modAssign_ok _ _ _ _ _ _ _ _ _ HbL Hf Ho Rv Nv Fv E1) as (C & O & R). split; [exact C|discriminate].
        + destruct (modAssign_ok _ _ _ _ _ _ _ _ _ HbL Hf Ho Rv Nv Fv E1) as (C & O & R). split; [exact C|discriminate].
    Qed.
    Lemma arr_ok_id h o : (forall l, o <> Ok l) -> arr_ok h h o.
    Proof. intros H. split; [apply change_refl|]. intros l El. destruct (H l El). Qed.
    Lemma assign_vector_ok f ds lr : fok f -> forall h l i o h', b <= length h -> owned h W (HRef l) -> is_value h (HRef lr) ->
      assign_vector conv f l ds lr i h = (o, h') -> arr_ok h h' o.
    Proof.
      intros Hf. induction ds as [|d ds IH]; intros h l i o h' HbL Ho Hr E; cbn [assign_vector] in E.
      - injection E as <- <-. split; [apply change_refl|]. intros l' El. injection El as <-. exact Ho.
      - unfold ebind at 1, cell_at in E. destruct (nth_error h lr) as [c|] eqn:Hc; [|injection E as <- <-; apply arr_ok_id; discriminate].
        destruct (zlen (kids c) <=? i)%Z; [injection E as <- <-; apply arr_ok_id; discriminate|].
        unfold ebind at 1, elift in E. destruct (zat (kids c) i) as [x| |] eqn:Ex; try (injection E as <- <-; apply arr_ok_id; discriminate).
        apply zat_In in Ex. destruct (value_kid _ _ _ _ Hr Hc Ex) as (tx & lx & Rx).
        destruct (Copy_ok _ _ _ _ Rx) as (h1 & v & lv & E1 & Rv & Nv & Fv).
        unfold ebind at 1 in E. rewrite E1 in E.
        assert (C1 : change h (h ++ h1)) by apply change_ext.
        eapply arr_ok_trans; [exact C1|].
        assert (Ho1 : owned (h ++ h1) W (HRef l)) by (eapply change_owned; eassumption).
        assert (Nl : ~ In l lv).
        { intros Hi. apply Fv in Hi. destruct (owned_cell _ _ Ho) as (? & ? & ? & _ & _ & _ & _ & _ & Hl). lia. }
        assert (HbL1 : b <= length (h ++ h1)) by (rewrite app_length; lia).
        assert (Fv' : forall y, In y lv -> b <= y) by (intros y Hy; apply Fv in Hy; lia).
        apply ebind_inv in E. destruct E as [(l2 & h2 & E2 & E3)|[[E2 ->]|[E2 ->]]].
        + destruct (modAssign_ok _ _ _ _ _ _ _ _ _ HbL1 Hf Ho1 Rv Nl Fv' E2) as (C & O & R). destruct (R l2 eq_refl) as [Ho2 _].
          eapply arr_ok_trans; [exact C|]. eapply IH; [| | |exact E3].
          * pose proof (ch_len _ _ _ _ C). lia.
          * exact Ho2.
          * eapply change_value; [exact C|]. eapply change_value; [exact C1|exact Hr].
        + destruct (modAssign_ok _ _ _ _ _ _ _ _ _ HbL1 Hf Ho1 Rv Nl Fv' E2) as (C & O & R). split; [exact C|discriminate].
        + destruct (modAssign_ok _ _ _ _ _ _ _ _ _ HbL1 Hf Ho1 Rv Nl Fv' E2) as (C & O & R). split; [exact C|discriminate].
    Qed.
    Lemma as_array_ok R h o h' : as_array R h = (o, h') -> h' = h /\
      forall lr rds ks, o = Ok (Some (lr, rds, ks)) -> R = HRef lr /\ exists c, nth_error h lr = Some c /\ ks = kids c.
    Proof.
      unfold as_array. destruct R as [a|l]; [intros E; injection E as <- <-; split; [reflexivity|discriminate]|].
      unfold ebind, cell_at. destruct (nth_error h l) as [c|] eqn:Hc; [|intros E; injection E as <- <-; split; [reflexivity|discriminate]].
      destruct (hdof c); intros E; injection E as <- <-; (split; [reflexivity|]); intros lr rds ks E; try discriminate; injection E as <- <- <-; split; auto; exists c; auto.
    Qed.
    Lemma scalar_copy_ok f h l ds x o h' : b <= length h -> fok f -> owned h W (HRef l) -> is_value h x ->
      (let! v := Copy x in assign_scalar conv f l ds v) h = (o, h') -> arr_ok h h' o.
    Proof.
      intros HbL Hf Ho (tx & lx & Rx) E. destruct (Copy_ok _ _ _ _ Rx) as (h1 & v & lv & E1 & Rv & Nv & Fv).
      unfold ebind at 1 in E. rewrite E1 in E. assert (C1 : change h (h ++ h1)) by apply change_ext.
      eapply arr_ok_trans; [exact C1|]. eapply (assign_scalar_ok f ds Hf _ l v tx lv); [ | |exact Rv| | |exact E].
      - rewrite app_length. lia.
      - eapply change_owned; eassumption.
      - intros Hi. apply Fv in Hi. destruct (owned_cell _ _ Ho) as (? & ? & ? & _ & _ & _ & _ & _ & Hl). lia.
      - intros y Hy. apply Fv in Hy. lia.
    Qed.
    Lemma assignArray_ok f h l ids ds R o h' : b <= length h -> fok f -> owned h W (HRef l) -> is_value h R ->
      assignArray conv f l ids ds R h = (o, h') -> arr_ok h h' o.
    Proof.
      intros HbL Hf Ho HR E. unfold assignArray in E. apply ebind_inv in E. destruct E as [(r & h1 & E1 & E2)|[[E1 ->]|[E1 ->]]].
      2,3: destruct (as_array_ok _ _ _ _ E1) as [-> _]; apply arr_ok_id; discriminate.
      destruct (as_array_ok _ _ _ _ E1) as [-> Hr]. destruct r as [[[lr rds] ks]|].
      - destruct (Hr _ _ _ eq_refl) as [-> (c & Hc & ->)].
        destruct (kids c) as [|x [|y ks]] eqn:Ek.
        2:{ eapply scalar_copy_ok; [exact HbL|exact Hf|exact Ho| |exact E2]. eapply value_kid; [exact HR|exact Hc|]. rewrite Ek. left. reflexivity. }
        all: destruct list_eq_dec; [|injection E2 as <- <-; apply arr_ok_id; discriminate]; eapply assign_vector_ok; eassumption.
      - eapply scalar_copy_ok; eassumption.
    Qed.

    (* ---------- lists ---------- *)
    Lemma GetDeep_ok idx : forall h l o h', is_value h (HRef l) -> GetDeep l idx h = (o, h') -> h' = h /\ forall v, o = Ok v -> is_value h v.
    Proof.
      induction idx as [|k idx IH]; intros h l o h' Hv E; cbn [GetDeep] in E.
      - injection E as <- <-. split; [reflexivity|discriminate].
      - unfold ebind at 1, cell_at at 1 in E. destruct (nth_error h l) as [c|] eqn:Hc; [|injection E as <- <-; split; [reflexivity|discriminate]].
        destruct ((k <? 0)%Z || (zlen (kids c) <=? k)%Z); [injection E as <- <-; split; [reflexivity|discriminate]|].
        unfold ebind at 1, elift in E. destruct (zat (kids c) k) as [v| |] eqn:Ev; try (injection E as <- <-; split; [reflexivity|discriminate]).
        apply zat_In in Ev. pose proof (value_kid _ _ _ _ Hv Hc Ev) as Hk.
        destruct idx as [|k2 idx]. { injection E as <- <-. split; [reflexivity|]. intros w Ew. injection Ew as <-. exact Hk. }
        destruct v as [a|l']; [injection E as <- <-; split; [reflexivity|discriminate]|].
        unfold ebind at 1, cell_at at 1 in E. destruct (nth_error h l') as [c'|]; [|injection E as <- <-; split; [reflexivity|discriminate]].
        destruct (hdof c'); try (injection E as <- <-; split; [reflexivity|discriminate]).
        eapply IH; eassumption.
    Qed.
    Lemma SetDeep_ok idx x tx lx : forall h l o h', owned h W (HRef l) -> reads h x tx lx -> (forall y, In y lx -> b <= y) ->
      (forall y l0 t0 ls0, In y lx -> reads h (HRef l) t0 ls0 -> In l0 ls0 -> y <> l0) ->
      SetDeep l idx x h = (o, h') -> change h h'.
    Proof.
      induction idx as [|k idx IH]; intros h l o h' Ho Rx Fx Dx E; cbn [SetDeep] in E.
      - injection E as <- <-. apply change_refl.
      - destruct (owned_cell _ _ Ho) as (c & ts & ls & Hc & Ha & Wl & Wx & Nl & Ll & Hbr).
        assert (Rl : reads h (HRef l) (Node (hdof c) ts) (l :: ls)) by (econstructor; eassumption).
        unfold ebind at 1, cell_at at 1 in E. rewrite Hc in E.
        destruct ((k <? 0)%Z || (zlen (kids c) <=? k)%Z); [injection E as <- <-; apply change_refl|].
        destruct idx as [|k2 idx].
        { unfold write in E. injection E as <- <-. apply write_fits; auto. eapply fits_new; try eassumption.
          intros Hi. apply (Dx l l _ _ Hi Rl); [left; reflexivity|reflexivity]. }
        unfold ebind at 1, elift in E. destruct (zat (kids c) k) as [v| |] eqn:Ev; try (injection E as <- <-; apply change_refl).
        apply zat_In in Ev. destruct v as [a|l']; [injection E as <- <-; apply change_refl|].
        unfold ebind at 1, cell_at at 1 in E. destruct (nth_error h l') as [c'|]; [|injection E as <- <-; apply change_refl].
        destruct (hdof c'); try (injection E as <- <-; apply change_refl).
        eapply IH; [|exact Rx|exact Fx| |exact E].
        + eapply owned_kid; eassumption.
        + intros y l0 t0 ls0 Hy R0 Hl0. eapply Dx; [exact Hy|exact Rl|]. right.
          destruct (reads_all_In _ _ _ _ _ Ha Ev) as (t1 & l1 & R1 & I1). destruct (proj1 (reads_det h) _ _ _ R0 _ _ R1) as [-> ->]. apply I1, Hl0.
    Qed.
    Lemma assignList_ok f h l idx R o h' : b <= length h -> fok f -> owned h W (HRef l) -> is_value h R ->
      assignList f l idx R h = (o, h') -> change h h'.
    Proof.
      intros HbL Hf Ho HR E. unfold assignList in E. apply ebind_inv in E.
      assert (Hcall : forall o1 h1, match f with None => eret R | Some f => let! v := GetDeep l idx in f v R end h = (o1, h1) ->
        exists hx, h1 = h ++ hx /\ forall r, o1 = Ok r -> is_value h1 r).
      { intros o1 h1 E1. destruct f as [f|].
        2:{ injection E1 as <- <-. exists []. rewrite app_nil_r. split; [reflexivity|]. intros r Er. injection Er as <-. exact HR. }
        apply ebind_inv in E1. destruct E1 as [(v & h2 & E2 & E3)|[[E2 ->]|[E2 ->]]].
        - destruct (GetDeep_ok _ _ _ _ _ (owned_value _ _ _ Ho) E2) as [-> Hv]. destruct (Hv v eq_refl) as (tv & lv & Rv). destruct HR as (tr & lr & Rr).
          destruct (Hf h v R tv lv tr lr Rv Rr) as (o2 & hx & E4 & Hr). rewrite E4 in E3. injection E3 as <- <-.
          exists hx. split; [reflexivity|]. intros r Er. destruct (Hr r Er) as (t1 & l1 & R1 & _). exists t1, l1. exact R1.
        - destruct (GetDeep_ok _ _ _ _ _ (owned_value _ _ _ Ho) E2) as [-> Hv]. exists []. rewrite app_nil_r. split; [reflexivity|discriminate].
        - destruct (GetDeep_ok _ _ _ _ _ (owned_value _ _ _ Ho) E2) as [-> Hv]. exists []. rewrite app_nil_r. split; [reflexivity|discriminate]. }
      destruct E as [(v & h1 & E1 & E2)|[[E1 ->]|[E1 ->]]].
      2,3: destruct (Hcall _ _ E1) as (hx & -> & _); apply change_ext.
      destruct (Hcall _ _ E1) as (hx & -> & Hv). destruct (Hv v eq_refl) as (tv & lv & Rv).
      destruct (Copy_ok _ _ _ _ Rv) as (h2 & x & lx & E3 & Rx & Nx & Fx). unfold ebind in E2. rewrite E3 in E2.
      assert (C : change h ((h ++ hx) ++ h2)). { eapply change_trans; apply change_ext. }
      eapply change_trans; [exact C|]. eapply SetDeep_ok; [eapply change_owned; eassumption|exact Rx| | |exact E2].
      - intros y Hy. apply Fx in Hy. rewrite app_length in Hy. lia.
      - intros y l0 t0 ls0 Hy R0 Hl0 ->. apply Fx in Hy. destruct Ho as (t1 & l1 & R1 & _).
        pose proof (reads_ext _ (hx ++ h2) _ _ _ R1) as R2. rewrite app_assoc in R2.
        destruct (proj1 (reads_det _) _ _ _ R0 _ _ R2) as [-> ->]. apply (proj1 (reads_lt h) _ _ _ R1) in Hl0. rewrite app_length in Hy. lia.
    Qed.

    (* ---------- dictionaries ---------- *)
    Lemma dset_ok h l n v o h' : b <= length h -> owned h W (HRef l) -> is_value h v -> dset l n v h = (o, h') -> change h h'.
    Proof.
      intros HbL Ho (tv & lv & Rv) E. destruct (Copy_ok _ _ _ _ Rv) as (h1 & x & lx & E1 & Rx & Nx & Fx).
      unfold dset in E. unfold ebind at 1 in E. rewrite E1 in E.
      assert (C1 : change h (h ++ h1)) by apply change_ext. eapply change_trans; [exact C1|].
      assert (Ho1 : owned (h ++ h1) W (HRef l)) by (eapply change_owned; eassumption).
      destruct (owned_cell _ _ Ho1) as (c & ts & ls & Hc & _ & _ & _ & _ & _ & Hbr). unfold ebind, cell_at in E. rewrite Hc in E. unfold write in E. injection E as <- <-.
      apply write_fits; auto. eapply fits_new; try eassumption.
      - intros Hi. apply Fx in Hi. destruct (owned_cell _ _ Ho) as (? & ? & ? & _ & _ & _ & _ & _ & Hl). lia.
      - intros y Hy. apply Fx in Hy. lia.
    Qed.
    Lemma dnew_ok h l k o h' : b <= length h -> owned h W (HRef l) -> dnew l k h = (o, h') -> change h h'.
    Proof.
      intros HbL Ho E. unfold dnew in E. unfold ebind at 1, alloc in E.
      set (h1 := h ++ [mkCell (HArr None []) []]) in *. assert (C1 : change h h1) by apply change_ext.
      eapply change_trans; [exact C1|]. assert (Ho1 : owned h1 W (HRef l)) by (eapply change_owned; eassumption).
      destruct (owned_cell _ _ Ho1) as (c & ts & ls & Hc & Ha & Wl & Wx & Nl & Ll & Hbr). unfold ebind, cell_at in E. rewrite Hc in E.
      destruct (hdof c); try (injection E as <- <-; apply change_refl). unfold write in E. injection E as <- <-.
      apply (change_write b W h1 l c ts ls); auto. cbn [kids]. intros k' Hk. apply in_app_or in Hk as [Hk|[<-|[]]].
      - destruct (reads_all_In _ _ _ _ _ Ha Hk) as (tk & lk & Rk & Ik). exists tk, lk. split; [exact Rk|]. split; auto.
      - exists (Node (HArr None []) []), [length h]. split; [|split].
        + change (@HArr A U None []) with (hdof (mkCell (@HArr A U None []) [])). econstructor; [|reflexivity|constructor].
          unfold h1. rewrite nth_error_app2, Nat.sub_diag by lia. reflexivity.
        + intros [Hi|[]]. destruct (owned_cell _ _ Ho) as (? & ? & ? & _ & _ & _ & _ & _ & Hl). lia.
        + intros x [<-|[]]. right. exact HbL.
    Qed.
    Lemma dict_loop_ok f ints vec R : fok f -> forall i h l o h', b <= length h -> owned h W (HRef l) -> is_value h R ->
      (forall lr, vec = Some lr -> is_value h (HRef lr)) -> dict_loop origin f l ints vec i R h = (o, h') -> change h h'.
    Proof.
      intros Hf. induction ints as [|d ints IH]; intros i h l o h' HbL Ho HR Hvec E; cbn [dict_loop] in E.
      - injection E as <- <-. apply change_refl.
      - unfold ebind at 1, cell_at at 1 in E. destruct (nth_error h l) as [c|] eqn:Hc; [|injection E as <- <-; apply change_refl].
        destruct ((d - origin <? 0)%Z || (zlen (kids c) <=? d - origin)%Z); [injection E as <- <-; apply change_refl|].
        assert (H1 : forall o1 h1, match vec with None => eret R | Some lr => let! cr := cell_at lr in if (zlen (kids cr) <=? i)%Z then efail else elift (zat (kids cr) i) end h = (o1, h1) ->
           h1 = h /\ forall v, o1 = Ok v -> is_value h v).
        { intros o1 h1 E1. destruct vec as [lr|]. 2:{ injection E1 as <- <-. split; [reflexivity|]. intros v Ev. injection Ev as <-. exact HR. }
          unfold ebind, cell_at in E1. destruct (nth_error h lr) as [cr|] eqn:Hcr; [|injection E1 as <- <-; split; [reflexivity|discriminate]].
          destruct (zlen (kids cr) <=? i)%Z; [injection E1 as <- <-; split; [reflexivity|discriminate]|].
          unfold elift in E1. injection E1 as <- <-. split; [reflexivity|]. intros v Ev. apply zat_In in Ev. eapply value_kid; [apply Hvec; reflexivity|exact Hcr|exact Ev]. }
        apply ebind_inv in E. destruct E as [(v & h1 & E1 & E2)|[[E1 ->]|[E1 ->]]].
        2,3: destruct (H1 _ _ E1) as [-> _]; apply change_refl.
        destruct (H1 _ _ E1) as [-> Hv]. specialize (Hv v eq_refl). clear E1 H1.
        assert (H2 : forall o1 h1, match f with None => eret v | Some f => let! x := elift (zat (kids c) (d - origin)) in f x v end h = (o1, h1) ->
           exists hx, h1 = h ++ hx /\ forall r, o1 = Ok r -> is_value h1 r).
        { intros o1 h1 E1. destruct f as [f|].
          2:{ injection E1 as <- <-. exists []. rewrite app_nil_r. split; [reflexivity|]. intros r Er. injection Er as <-. exact Hv. }
          unfold ebind, elift in E1. destruct (zat (kids c) (d - origin)) as [x| |] eqn:Ex.
          2,3: injection E1 as <- <-; exists []; rewrite app_nil_r; (split; [reflexivity|discriminate]).
          apply zat_In in Ex. destruct (value_kid _ _ _ _ (owned_value _ _ _ Ho) Hc Ex) as (tx & lx & Rx). destruct Hv as (tv & lv & Rv).
          destruct (Hf h x v tx lx tv lv Rx Rv) as (o2 & hx & E4 & Hr). rewrite E4 in E1. injection E1 as <- <-.
          exists hx. split; [reflexivity|]. intros r Er. destruct (Hr r Er) as (t1 & l1 & R1 & _). exists t1, l1. exact R1. }
        apply ebind_inv in E2. destruct E2 as [(v2 & h1 & E1 & E2)|[[E1 ->]|[E1 ->]]].
        2,3: destruct (H2 _ _ E1) as (hx & -> & _); apply change_ext.
        destruct (H2 _ _ E1) as (hx & -> & Hv2). specialize (Hv2 v2 eq_refl).
        assert (C1 : change h (h ++ hx)) by apply change_ext. eapply change_trans; [exact C1|].
        assert (Ho1 : owned (h ++ hx) W (HRef l)) by (eapply change_owned; eassumption).
        assert (HbL1 : b <= length (h ++ hx)) by (rewrite app_length; lia).
        apply ebind_inv in E2. destruct E2 as [([] & h2 & E3 & E4)|[[E3 ->]|[E3 ->]]].
        2,3: exact (dset_ok _ _ _ _ _ _ HbL1 Ho1 Hv2 E3).
        pose proof (dset_ok _ _ _ _ _ _ HbL1 Ho1 Hv2 E3) as C2. eapply change_trans; [exact C2|].
        eapply IH; [| | | |exact E4].
        + pose proof (ch_len _ _ _ _ C2). lia.
        + eapply change_owned; eassumption.
        + eapply change_value; [exact C2|]. eapply change_value; eassumption.
        + intros lr Elr. eapply change_value; [exact C2|]. eapply change_value; [exact C1|]. apply Hvec, Elr.
    Qed.
    Lemma dict_flat_ok f h l ints R o h' : b <= length h -> fok f -> owned h W (HRef l) -> is_value h R ->
      dict_flat origin f l ints R h = (o, h') -> change h h'.
    Proof.
      intros HbL Hf Ho HR E. unfold dict_flat in E. apply ebind_inv in E. destruct E as [(r & h1 & E1 & E2)|[[E1 ->]|[E1 ->]]].
      2,3: destruct (as_array_ok _ _ _ _ E1) as [-> _]; apply change_refl.
      destruct (as_array_ok _ _ _ _ E1) as [-> Hr].
      assert (Hnone : forall lr, @None nat = Some lr -> is_value h (HRef lr)) by discriminate.
      destruct r as [[[lr rds] ks]|].
      - destruct (Hr _ _ _ eq_refl) as [-> _]. destruct (1 <? zlen ints)%Z; [destruct (zlen ints =? zlen ks)%Z|].
        + eapply (dict_loop_ok f ints (Some lr)); try eassumption. intros lr' El. injection El as <-. exact HR.
        + injection E2 as <- <-. apply change_refl.
        + eapply (dict_loop_ok f ints None); eassumption.
      - eapply (dict_loop_ok f ints None); eassumption.
    Qed.
    Lemma assignObject_ok f ints R : fok f -> forall h l o h', b <= length h -> owned h W (HRef l) -> is_value h R ->
      assignObject conv origin f l ints R h = (o, h') -> change h h'.
    Proof.
      intros Hf. induction ints as [|i0 rest IH]; intros h l o h' HbL Ho HR E; cbn [assignObject] in E.
      - eapply dict_flat_ok; eassumption.
      - destruct (i0 <? 0)%Z; [|eapply dict_flat_ok; eassumption].
        destruct rest as [|i1 rest]; [eapply dict_flat_ok; eassumption|].
        set (ri := i1 :: rest) in *. clearbody ri.
        unfold ebind at 1, cell_at at 1 in E. destruct (nth_error h l) as [c|] eqn:Hc; [|injection E as <- <-; apply change_refl].
        destruct (zlen (kids c) <=? -1 - i0)%Z; [injection E as <- <-; apply change_refl|].
        unfold ebind at 1, elift in E. destruct (zat (kids c) (-1 - i0)) as [v| |] eqn:Ev; try (injection E as <- <-; apply change_refl).
        apply zat_In in Ev. destruct v as [a|lv]; [injection E as <- <-; apply change_refl|].
        pose proof (owned_kid _ _ _ _ Ho Hc Ev) as Hov.
        unfold ebind at 1, cell_at at 1 in E. destruct (nth_error h lv) as [cv|] eqn:Hcv; [|injection E as <- <-; apply change_refl].
        assert (Hin : forall o1 h1, match hdof cv with
                             | HDct _ => let! _ := assignObject conv origin f lv ri R in eret (HRef lv)
                             | HLst => let! _ := assignList f lv ri R in eret (HRef lv)
                             | HArr _ _ => let! l' := assignArray conv f lv [zlen ri] ri R in eret (HRef l')
                             end h = (o1, h1) -> change h h1 /\ forall r, o1 = Ok r -> is_value h1 r).
        { intros o1 h1 E1. destruct (hdof cv) as [u ds| |keys].
          - apply ebind_inv in E1. destruct E1 as [(l' & h2 & E2 & E3)|[[E2 ->]|[E2 ->]]].
            + injection E3 as <- <-. destruct (assignArray_ok _ _ _ _ _ _ _ _ HbL Hf Hov HR E2) as [C Hr]. split; [exact C|].
              intros r Er. injection Er as <-. eapply owned_value. apply Hr. reflexivity.
            + destruct (assignArray_ok _ _ _ _ _ _ _ _ HbL Hf Hov HR E2) as [C Hr]. split; [exact C|discriminate].
            + destruct (assignArray_ok _ _ _ _ _ _ _ _ HbL Hf Hov HR E2) as [C Hr]. split; [exact C|discriminate].
          - apply ebind_inv in E1. destruct E1 as [([] & h2 & E2 & E3)|[[E2 ->]|[E2 ->]]].
            + injection E3 as <- <-. pose proof (assignList_ok _ _ _ _ _ _ _ HbL Hf Hov HR E2) as C. split; [exact C|].
              intros r Er. injection Er as <-. eapply change_value; [exact C|]. eapply owned_value, Hov.
            + pose proof (assignList_ok _ _ _ _ _ _ _ HbL Hf Hov HR E2) as C. split; [exact C|discriminate].
            + pose proof (assignList_ok _ _ _ _ _ _ _ HbL Hf Hov HR E2) as C. split; [exact C|discriminate].
          - apply ebind_inv in E1. destruct E1 as [([] & h2 & E2 & E3)|[[E2 ->]|[E2 ->]]].
            + injection E3 as <- <-. pose proof (IH _ _ _ _ HbL Hov HR E2) as C. split; [exact C|].
              intros r Er. injection Er as <-. eapply change_value; [exact C|]. eapply owned_value, Hov.
            + pose proof (IH _ _ _ _ HbL Hov HR E2) as C. split; [exact C|discriminate].
            + pose proof (IH _ _ _ _ HbL Hov HR E2) as C. split; [exact C|discriminate]. }
        apply ebind_inv in E. destruct E as [(v' & h1 & E1 & E2)|[[E1 ->]|[E1 ->]]].
        2,3: exact (proj1 (Hin _ _ E1)).
        destruct (Hin _ _ E1) as [C Hv']. eapply change_trans; [exact C|]. eapply dset_ok; [| | |exact E2].
        + pose proof (ch_len _ _ _ _ C). lia.
        + eapply change_owned; eassumption.
        + apply Hv'. reflexivity.
    Qed.
    Lemma assignValue_ok f h w ids ds R o h' : b <= length h -> fok f -> owned h W w -> is_value h R ->
      assignValue conv origin f w ids ds R h = (o, h') -> change h h' /\ forall v, o = Ok (Some v) -> is_value h' v.
    Proof.
      intros HbL Hf Ho HR E. unfold assignValue in E. destruct w as [a|l]; [injection E as <- <-; split; [apply change_refl|discriminate]|].
      unfold ebind at 1, cell_at at 1 in E. destruct (nth_error h l) as [c|]; [|injection E as <- <-; split; [apply change_refl|discriminate]].
      destruct (hdof c).
      - apply ebind_inv in E. destruct E as [(l' & h2 & E2 & E3)|[[E2 ->]|[E2 ->]]].
        + injection E3 as <- <-. destruct (assignArray_ok _ _ _ _ _ _ _ _ HbL Hf Ho HR E2) as [C Hr]. split; [exact C|].
          intros r Er. injection Er as <-. eapply owned_value. apply Hr. reflexivity.
        + destruct (assignArray_ok _ _ _ _ _ _ _ _ HbL Hf Ho HR E2) as [C Hr]. split; [exact C|discriminate].
        + destruct (assignArray_ok _ _ _ _ _ _ _ _ HbL Hf Ho HR E2) as [C Hr]. split; [exact C|discriminate].
      - apply ebind_inv in E. destruct E as [([] & h2 & E2 & E3)|[[E2 ->]|[E2 ->]]].
        + injection E3 as <- <-. split; [exact (assignList_ok _ _ _ _ _ _ _ HbL Hf Ho HR E2)|discriminate].
        + split; [exact (assignList_ok _ _ _ _ _ _ _ HbL Hf Ho HR E2)|discriminate].
        + split; [exact (assignList_ok _ _ _ _ _ _ _ HbL Hf Ho HR E2)|discriminate].
      - apply ebind_inv in E. destruct E as [([] & h2 & E2 & E3)|[[E2 ->]|[E2 ->]]].
        + injection E3 as <- <-. split; [exact (assignObject_ok _ _ _ Hf _ _ _ _ HbL Ho HR E2)|discriminate].
        + split; [exact (assignObject_ok _ _ _ Hf _ _ _ _ HbL Ho HR E2)|discriminate].
        + split; [exact (assignObject_ok _ _ _ Hf _ _ _ _ HbL Ho HR E2)|discriminate].
    Qed.
  End Op.
End P.
