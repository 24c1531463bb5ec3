(* P_Heap.v -- proofs about the heap model. *)
From Verif Require Import Base Eff M_Heap S_Heap.
From Coq Require Import List ZArith Bool Lia.
Import ListNotations.

Scheme reads_mind := Minimality for reads Sort Prop with reads_all_mind := Minimality for reads_all Sort Prop.
Combined Scheme reads_both from reads_mind, reads_all_mind.

Section P.
  Context {A U : Type} {BR : ByRef U}.
  Local Notation hval := (hval A). Local Notation hdr := (hdr A U). Local Notation heap := (heap A U). Local Notation cell := (cell A U).
  Local Notation tree := (tree A U).
  Implicit Types (h : heap) (v w : hval) (t : tree) (ls : list nat).
  Open Scope nat_scope.

  Lemma hupd_length h l c : length (hupd h l c) = length h.
  Proof.
    unfold hupd. rewrite app_length, firstn_length. pose proof (skipn_length l h).
    destruct (skipn l h); cbn in *; lia.
  Qed.
  Lemma hupd_eq h l c : l < length h -> nth_error (hupd h l c) l = Some c.
  Proof.
    intros Hl. unfold hupd. rewrite nth_error_app2; rewrite firstn_length_le by lia; [|lia].
    rewrite Nat.sub_diag. destruct (skipn l h) eqn:E; [|reflexivity].
    apply (f_equal (@length _)) in E. rewrite skipn_length in E. cbn in E. lia.
  Qed.
  Lemma hupd_neq h l c x : x <> l -> nth_error (hupd h l c) x = nth_error h x.
  Proof.
    intros Hx. destruct (Nat.lt_ge_cases l (length h)) as [Hl|Hl].
    - unfold hupd. rewrite <- (firstn_skipn l h) at 3.
      assert (Hf : length (firstn l h) = l) by (apply firstn_length_le; lia).
      destruct (Nat.lt_ge_cases x l).
      + rewrite !nth_error_app1 by lia. reflexivity.
      + rewrite !nth_error_app2 by lia. rewrite Hf.
        destruct (skipn l h) eqn:E; [reflexivity|]. destruct (x - l) eqn:Ex; [lia|]. reflexivity.
    - unfold hupd. rewrite firstn_all2, skipn_all2 by lia. rewrite app_nil_r. reflexivity.
  Qed.

  (* ---------- reads ---------- *)
  Lemma reads_det h :
    (forall v t ls, reads h v t ls -> forall t' ls', reads h v t' ls' -> t' = t /\ ls' = ls) /\
    (forall vs ts ls, reads_all h vs ts ls -> forall ts' ls', reads_all h vs ts' ls' -> ts' = ts /\ ls' = ls).
  Proof.
    apply reads_both.
    - intros a t' ls' H. inversion H; auto.
    - intros l c ts ls Hc Hd _ IH t' ls' H. inversion H as [|l2 c2 ts2 ls2 Hc2 Hd2 Ha2]; subst. rewrite Hc in Hc2. injection Hc2 as <-.
      destruct (IH _ _ Ha2) as [-> ->]. auto.
    - intros ts' ls' H. inversion H; auto.
    - intros v t ls vs ts ls' _ IH1 _ IH2 ts' ls'' H. inversion H as [|v2 t2 l2 vs2 ts2 ls2 Hv2 Ha2]; subst.
      destruct (IH1 _ _ Hv2) as [-> ->]. destruct (IH2 _ _ Ha2) as [-> ->]. auto.
  Qed.
  Lemma reads_frame h h' :
    (forall v t ls, reads h v t ls -> (forall x, In x ls -> nth_error h' x = nth_error h x) -> reads h' v t ls) /\
    (forall vs ts ls, reads_all h vs ts ls -> (forall x, In x ls -> nth_error h' x = nth_error h x) -> reads_all h' vs ts ls).
  Proof.
    apply reads_both.
    - constructor.
    - intros l c ts ls Hc Hd _ IH H. econstructor; [|exact Hd|].
      + rewrite H by (left; reflexivity). exact Hc.
      + apply IH. intros x Hx. apply H. right. exact Hx.
    - constructor.
    - intros v t ls vs ts ls' _ IH1 _ IH2 H. constructor.
      + apply IH1. intros x Hx. apply H, in_or_app. auto.
      + apply IH2. intros x Hx. apply H, in_or_app. auto.
  Qed.
  Lemma reads_lt h :
    (forall v t ls, reads h v t ls -> forall x, In x ls -> x < length h) /\
    (forall vs ts ls, reads_all h vs ts ls -> forall x, In x ls -> x < length h).
  Proof.
    apply reads_both.
    - intros a x [].
    - intros l c ts ls Hc Hd _ IH x [<-|Hx]; [|auto]. apply nth_error_Some. congruence.
    - intros x [].
    - intros v t ls vs ts ls' _ IH1 _ IH2 x Hx. apply in_app_or in Hx as [Hx|Hx]; auto.
  Qed.
  Lemma reads_ext h h1 v t ls : reads h v t ls -> reads (h ++ h1) v t ls.
  Proof.
    intros H. apply (proj1 (reads_frame h _) _ _ _ H). intros x Hx.
    apply nth_error_app1. eapply (proj1 (reads_lt h)); eassumption.
  Qed.
  Lemma reads_all_ext h h1 vs ts ls : reads_all h vs ts ls -> reads_all (h ++ h1) vs ts ls.
  Proof.
    intros H. apply (proj2 (reads_frame h _) _ _ _ H). intros x Hx.
    apply nth_error_app1. eapply (proj2 (reads_lt h)); eassumption.
  Qed.
  Lemma is_value_ext h h1 v : is_value h v -> is_value (h ++ h1) v.
  Proof. intros (t & ls & H). exists t, ls. apply reads_ext. exact H. Qed.
  (* every cell of a value is a value, inside of it *)
  Lemma reads_sub h :
    (forall v t ls, reads h v t ls -> forall x, In x ls -> exists t' ls', reads h (HRef x) t' ls' /\ incl ls' ls) /\
    (forall vs ts ls, reads_all h vs ts ls -> forall x, In x ls -> exists t' ls', reads h (HRef x) t' ls' /\ incl ls' ls).
  Proof.
    apply reads_both.
    - intros a x [].
    - intros l c ts ls Hc Hd Ha IH x [<-|Hx].
      + exists (Node (hdof c) ts), (l :: ls). split; [econstructor; eassumption|apply incl_refl].
      + destruct (IH x Hx) as (t' & ls' & H1 & H2). exists t', ls'. split; [exact H1|]. apply incl_tl. exact H2.
    - intros x [].
    - intros v t ls vs ts ls' _ IH1 _ IH2 x Hx. apply in_app_or in Hx as [Hx|Hx].
      + destruct (IH1 x Hx) as (t' & l' & H1 & H2). exists t', l'. split; [exact H1|apply incl_appl; exact H2].
      + destruct (IH2 x Hx) as (t' & l' & H1 & H2). exists t', l'. split; [exact H1|apply incl_appr; exact H2].
  Qed.
  Lemma reads_all_In h vs ts ls v : reads_all h vs ts ls -> In v vs -> exists t l, reads h v t l /\ incl l ls.
  Proof.
    induction 1; intros Hi; [destruct Hi|]. destruct Hi as [<-|Hi].
    - exists t, ls. split; [assumption|apply incl_appl, incl_refl].
    - destruct (IHreads_all Hi) as (t0 & l0 & H1 & H2). exists t0, l0. split; [exact H1|apply incl_appr; exact H2].
  Qed.

  (* ---------- the height ---------- *)
  Fixpoint height (t : tree) : nat :=
    match t with Leaf _ => 0 | Node _ ts => S (fold_right Nat.max 0 (map height ts)) end.
  Definition heights (ts : list tree) : nat := fold_right Nat.max 0 (map height ts).
  Lemma heights_In ts t : In t ts -> height t <= heights ts.
  Proof. induction ts; intros []; unfold heights; cbn; [subst; lia|]. specialize (IHts H). unfold heights in IHts. lia. Qed.
  (* a cell inside of a value has a smaller tree *)
  Lemma reads_height h :
    (forall v t ls, reads h v t ls -> forall x, In x ls -> exists t' ls', reads h (HRef x) t' ls' /\ height t' <= height t) /\
    (forall vs ts ls, reads_all h vs ts ls -> forall x, In x ls -> exists t' ls', reads h (HRef x) t' ls' /\ height t' <= heights ts).
  Proof.
    apply reads_both.
    - intros a x [].
    - intros l c ts ls Hc Hd Ha IH x [<-|Hx].
      + exists (Node (hdof c) ts), (l :: ls). split; [econstructor; eassumption|lia].
      + destruct (IH x Hx) as (t' & ls' & H1 & H2). exists t', ls'. split; [exact H1|]. cbn. unfold heights in H2. lia.
    - intros x [].
    - intros v t ls vs ts ls' _ IH1 _ IH2 x Hx. unfold heights. cbn. fold (heights ts). apply in_app_or in Hx as [Hx|Hx].
      + destruct (IH1 x Hx) as (t' & l' & H1 & H2). exists t', l'. split; [exact H1|lia].
      + destruct (IH2 x Hx) as (t' & l' & H1 & H2). exists t', l'. split; [exact H1|lia].
  Qed.
  (* a value does not contain itself *)
  Lemma reads_acyclic h l c ts ls : nth_error h l = Some c -> reads_all h (kids c) ts ls -> ~ In l ls.
  Proof.
    intros Hc Ha Hi. destruct (proj2 (reads_height h) _ _ _ Ha l Hi) as (t' & ls' & H1 & H2).
    assert (Hd : by_reference (hdof c) = false) by (inversion H1; subst; congruence).
    assert (H3 : reads h (HRef l) (Node (hdof c) ts) (l :: ls)) by (econstructor; eassumption).
    destruct (proj1 (reads_det h) _ _ _ H1 _ _ H3) as [<- _]. cbn in H2. unfold heights in H2. lia.
  Qed.
  (* a chain of distinct cells as long as the tree is high *)
  Lemma reads_chain h :
    (forall v t ls, reads h v t ls -> exists c, length c = height t /\ NoDup c /\ incl c ls) /\
    (forall vs ts ls, reads_all h vs ts ls -> exists c, length c = heights ts /\ NoDup c /\ incl c ls).
  Proof.
    apply reads_both.
    - intros a. exists []. repeat split; [constructor|intros x []].
    - intros l c ts ls Hc Hd Ha (ch & H1 & H2 & H3). exists (l :: ch). cbn. unfold heights in H1. split; [lia|]. split.
      + constructor; [|exact H2]. intros Hi. apply (reads_acyclic h l c ts ls Hc Ha). apply H3, Hi.
      + intros x [<-|Hx]; [left; reflexivity|right; apply H3, Hx].
    - exists []. repeat split; [constructor|intros x []].
    - intros v t ls vs ts ls' _ (c1 & A1 & A2 & A3) _ (c2 & B1 & B2 & B3). unfold heights. cbn. fold (heights ts).
      destruct (Nat.le_ge_cases (height t) (heights ts)).
      + exists c2. split; [lia|]. split; [exact B2|]. apply incl_appr. exact B3.
      + exists c1. split; [lia|]. split; [exact A2|]. apply incl_appl. exact A3.
  Qed.
  Lemma height_le h v t ls : reads h v t ls -> height t <= length h.
  Proof.
    intros H. destruct (proj1 (reads_chain h) _ _ _ H) as (c & H1 & H2 & H3). rewrite <- H1.
    rewrite <- (seq_length (length h) 0). apply NoDup_incl_length; [exact H2|].
    intros x Hx. apply in_seq. split; [lia|]. cbn. eapply (proj1 (reads_lt h)); [exact H|apply H3, Hx].
  Qed.

  (* ---------- Copy ---------- *)
  Definition copied h v t := fun (r : outcome hval * heap) =>
    exists h1 v' ls', r = (Ok v', h ++ h1) /\ reads (h ++ h1) v' t ls' /\ NoDup ls' /\ forall x, In x ls' -> length h <= x.
  Lemma NoDup_two (X : Type) (l1 l2 : list X) : NoDup l1 -> NoDup l2 -> (forall x, In x l1 -> ~ In x l2) -> NoDup (l1 ++ l2).
  Proof.
    induction l1 as [|a l1 IH]; intros H1 H2 H; [exact H2|]. cbn. inversion H1; subst. constructor.
    - intros Hi. apply in_app_or in Hi as [Hi|Hi]; [auto|]. exact (H a (or_introl eq_refl) Hi).
    - apply IH; auto. intros x Hx. apply H. right. exact Hx.
  Qed.
  Lemma copy_mapE n h vs ts ls : reads_all h vs ts ls -> (forall v t, In t ts -> forall h0 l0, reads h0 v t l0 -> copied h0 v t (copy n v h0)) ->
    exists h1 vs' ls', mapE (copy n) vs h = (Ok vs', h ++ h1) /\ reads_all (h ++ h1) vs' ts ls' /\ NoDup ls' /\ forall x, In x ls' -> length h <= x.
  Proof.
    revert ts ls h. induction vs as [|v vs IH]; intros ts ls h Ha Hc.
    - inversion Ha; subst. exists [], [], []. rewrite app_nil_r. split; [reflexivity|]. split; [constructor|]. split; [constructor|intros x []].
    - inversion Ha as [|v2 t lv vs2 ts0 ls' H1 H3]; subst. rename ts0 into ts.
      destruct (Hc v t (or_introl eq_refl) h _ H1) as (h1 & v' & l1 & E1 & R1 & N1 & F1).
      destruct (IH ts ls' (h ++ h1) (reads_all_ext _ _ _ _ _ H3)) as (h2 & vs' & l2 & E2 & R2 & N2 & F2).
      { intros w t' Hi. apply Hc. right. exact Hi. }
      exists (h1 ++ h2), (v' :: vs'), (l1 ++ l2). cbn [mapE]. unfold ebind. rewrite E1, E2. unfold eret. rewrite app_assoc.
      split; [reflexivity|]. split; [constructor; [apply reads_ext; exact R1|exact R2]|]. split.
      + apply NoDup_two; auto. intros x Hx Hy. apply F2 in Hy. apply (proj1 (reads_lt _) _ _ _ R1) in Hx. lia.
      + intros x Hx. apply in_app_or in Hx as [Hx|Hx]; [apply F1, Hx|]. apply F2 in Hx. rewrite app_length in Hx. lia.
  Qed.
  Lemma copy_ok n : forall h v t ls, reads h v t ls -> height t < n -> copied h v t (copy n v h).
  Proof.
    induction n as [|n IH]; intros h v t ls H Hn; [lia|]. inversion H as [a|l c ts ls0 H0 Hd H1]; subst.
    - exists [], (HAtom a), []. rewrite app_nil_r. cbn. split; [reflexivity|]. split; [constructor|]. split; [constructor|intros x []].
    - destruct (copy_mapE n h (kids c) ts ls0 H1) as (h1 & vs' & l1 & E1 & R1 & N1 & F1).
      { intros w t' Hi h0 l0 R. apply (IH _ _ _ _ R). pose proof (heights_In _ _ Hi) as H2. cbn in Hn. unfold heights in H2. lia. }
      exists (h1 ++ [mkCell (hdof c) vs']), (HRef (length (h ++ h1))), (length (h ++ h1) :: l1).
      cbn [copy]. unfold ebind, cell_at, alloc, eret. rewrite H0, Hd, E1. rewrite app_assoc. split; [reflexivity|]. split; [|split].
      + change (Node (hdof c) ts) with (Node (hdof (mkCell (hdof c) vs')) ts). econstructor; [|exact Hd|].
        * rewrite nth_error_app2, Nat.sub_diag by lia. reflexivity.
        * cbn. apply reads_all_ext. exact R1.
      + constructor; [|exact N1]. intros Hi. apply (proj2 (reads_lt _) _ _ _ R1) in Hi. lia.
      + intros x [<-|Hx]; [rewrite app_length; lia|]. apply F1, Hx.
  Qed.
  Lemma Copy_ok h v t ls : reads h v t ls -> copied h v t (Copy v h).
  Proof. intros H. apply (copy_ok _ _ _ _ ls); [exact H|]. pose proof (height_le _ _ _ _ H). lia. Qed.

  (* ---------- changes of the heap ---------- *)
  (* b: cells from b on are new; W: the cells that may be written *)
  Record change (b : nat) (W : nat -> Prop) h h' : Prop := {
    ch_len : length h <= length h';
    ch_frame : forall x, x < length h -> ~ W x -> nth_error h' x = nth_error h x;
    ch_reads : forall v t ls, reads h v t ls -> exists t' ls', reads h' v t' ls' /\ forall x, In x ls' -> In x ls \/ b <= x }.
  Lemma change_refl b W h : change b W h h.
  Proof. constructor; auto. intros v t ls H. exists t, ls. auto. Qed.
  Lemma change_trans b W h1 h2 h3 : change b W h1 h2 -> change b W h2 h3 -> change b W h1 h3.
  Proof.
    intros [L1 F1 R1] [L2 F2 R2]. constructor.
    - lia.
    - intros x Hx Hw. rewrite F2, F1 by (auto; lia). reflexivity.
    - intros v t ls H. destruct (R1 _ _ _ H) as (t1 & l1 & A1 & A2). destruct (R2 _ _ _ A1) as (t2 & l2 & B1 & B2).
      exists t2, l2. split; [exact B1|]. intros x Hx. destruct (B2 x Hx) as [Hx'|]; auto.
  Qed.
  Lemma change_ext b W h h1 : change b W h (h ++ h1).
  Proof.
    constructor.
    - rewrite app_length. lia.
    - intros x Hx _. apply nth_error_app1, Hx.
    - intros v t ls H. exists t, ls. split; [apply reads_ext, H|auto].
  Qed.
  Lemma change_value b W h h' v : change b W h h' -> is_value h v -> is_value h' v.
  Proof. intros C (t & ls & H). destruct (ch_reads _ _ _ _ C _ _ _ H) as (t' & ls' & H' & _). exists t', ls'. exact H'. Qed.
  (* a value all of whose cells may be written *)
  Definition owned h (W : nat -> Prop) v : Prop := exists t ls, reads h v t ls /\ forall x, In x ls -> W x.
  Lemma owned_value h W v : owned h W v -> is_value h v.
  Proof. intros (t & ls & H & _). exists t, ls. exact H. Qed.
  Lemma change_owned b (W : nat -> Prop) h h' v : (forall x, b <= x -> W x) -> change b W h h' -> owned h W v -> owned h' W v.
  Proof.
    intros Hb C (t & ls & H & Hw). destruct (ch_reads _ _ _ _ C _ _ _ H) as (t' & ls' & H' & Hx).
    exists t', ls'. split; [exact H'|]. intros x Hi. destruct (Hx x Hi); auto.
  Qed.
  (* writing a cell whose new parts are old parts of it or new cells *)
  Lemma change_write b (W : nat -> Prop) h l c ts ls c' : W l -> nth_error h l = Some c -> by_reference (hdof c') = false -> reads_all h (kids c) ts ls ->
    (forall k, In k (kids c') -> exists tk lk, reads h k tk lk /\ ~ In l lk /\ forall x, In x lk -> In x ls \/ b <= x) ->
    change b W h (hupd h l c').
  Proof.
    intros Hw Hc Hd Ha Hk.
    assert (Hl : l < length h) by (apply nth_error_Some; congruence).
    assert (Hks : exists ts' lk, reads_all (hupd h l c') (kids c') ts' lk /\ forall x, In x lk -> In x ls \/ b <= x).
    { revert Hk. generalize (kids c'). induction l0 as [|k ks IH]; intros Hk.
      - exists [], []. split; [constructor|intros x []].
      - destruct (Hk k (or_introl eq_refl)) as (tk & lk & R1 & N1 & I1).
        destruct IH as (ts' & lk' & R2 & I2). { intros k' Hi. apply Hk. right. exact Hi. }
        exists (tk :: ts'), (lk ++ lk'). split.
        + constructor; [|exact R2]. apply (proj1 (reads_frame h _) _ _ _ R1). intros x Hx.
          apply hupd_neq. intros ->. auto.
        + intros x Hx. apply in_app_or in Hx as [Hx|Hx]; auto. }
    destruct Hks as (ts' & lk & R & I).
    constructor.
    - rewrite hupd_length. lia.
    - intros x Hx Hn. apply hupd_neq. intros ->. auto.
    - assert (HB : (forall v t l0, reads h v t l0 -> exists t' l0', reads (hupd h l c') v t' l0' /\ forall x, In x l0' -> In x l0 \/ b <= x) /\
                   (forall vs ts0 l0, reads_all h vs ts0 l0 -> exists ts0' l0', reads_all (hupd h l c') vs ts0' l0' /\ forall x, In x l0' -> In x l0 \/ b <= x)).
      { apply reads_both.
        - intros a. exists (Leaf a), []. split; [constructor|intros x []].
        - intros l1 c1 ts1 ls1 Hc1 Hd1 Ha1 (t' & l0' & R' & I').
          destruct (Nat.eq_dec l1 l) as [->|Hn].
          + rewrite Hc in Hc1. injection Hc1 as <-.
            destruct (proj2 (reads_det h) _ _ _ Ha _ _ Ha1) as [-> ->].
            exists (Node (hdof c') ts'), (l :: lk). split.
            * econstructor; [apply hupd_eq; exact Hl|exact Hd|exact R].
            * intros x [<-|Hx]; [left; left; reflexivity|]. destruct (I x Hx); [left; right; assumption|right; assumption].
          + exists (Node (hdof c1) t'), (l1 :: l0'). split.
            * econstructor; [rewrite hupd_neq by exact Hn; exact Hc1|exact Hd1|exact R'].
            * intros x [<-|Hx]; [left; left; reflexivity|]. destruct (I' x Hx); [left; right; assumption|right; assumption].
        - exists [], []. split; [constructor|intros x []].
        - intros v t l1 vs ts1 l2 _ (t' & l1' & R1 & I1) _ (t2' & l2' & R2 & I2).
          exists (t' :: t2'), (l1' ++ l2'). split; [constructor; assumption|].
          intros x Hx. apply in_app_or in Hx as [Hx|Hx]; [destruct (I1 x Hx)|destruct (I2 x Hx)]; auto; left; apply in_or_app; auto. }
      intros v t l0 H. apply (proj1 HB _ _ _ H).
  Qed.
End P.
