(* P_Big.v -- which cells the methods write to. *)
From Coq Require Import String QArith Qabs Qround Lia.
From Verif Require Import Base M_Array S_Array P_Array Eff M_Number M_Big S_Big.
Open Scope Z_scope.

(* m leaves the cells below n alone and its result satisfies P *)
Definition keeps {A} (n : Z) (m : eff heap A) (P : A -> Prop) : Prop :=
  forall h r h', n <= zlen h -> m h = (r, h') ->
    zlen h <= zlen h' /\ (forall p, p < n -> znth h' p = znth h p) /\ (forall a, r = Ok a -> P a).

Lemma keeps_ret {A} n (a : A) (P : A -> Prop) : P a -> keeps n (eret a) P.
Proof. intros HP h r h' Hn E. unfold eret in E. injection E as <- <-. split; [lia|]. split; [reflexivity|]. intros x Ex; injection Ex as <-; exact HP. Qed.
Lemma keeps_fail {A} n (P : A -> Prop) : keeps n efail P.
Proof. intros h r h' Hn E. unfold efail in E. injection E as <- <-. split; [lia|]. split; [reflexivity|]. discriminate. Qed.
Lemma keeps_panic {A} n (P : A -> Prop) : keeps n epanic P.
Proof. intros h r h' Hn E. unfold epanic in E. injection E as <- <-. split; [lia|]. split; [reflexivity|]. discriminate. Qed.
Lemma keeps_lift {A} n (o : outcome A) : keeps n (elift o) (fun _ => True).
Proof. intros h r h' Hn E. unfold elift in E. injection E as <- <-. split; [lia|]. split; [reflexivity|]. auto. Qed.
Lemma keeps_bind {A B} n (m : eff heap A) (k : A -> eff heap B) P R :
  keeps n m P -> (forall a, P a -> keeps n (k a) R) -> keeps n (ebind m k) R.
Proof.
  intros Hm Hk h r h' Hn E. unfold ebind in E. destruct (m h) as [o h1] eqn:Em.
  destruct (Hm _ _ _ Hn Em) as (L1 & K1 & V1).
  destruct o as [a| |].
  - destruct (Hk a (V1 a eq_refl) h1 r h' ltac:(lia) E) as (L2 & K2 & V2).
    split; [lia|]. split; [|exact V2]. intros p Hp. rewrite K2 by exact Hp. apply K1; exact Hp.
  - injection E as <- <-. split; [lia|]. split; [exact K1|discriminate].
  - injection E as <- <-. split; [lia|]. split; [exact K1|discriminate].
Qed.
Lemma keeps_weaken {A} n (m : eff heap A) (P R : A -> Prop) : keeps n m P -> (forall a, P a -> R a) -> keeps n m R.
Proof. intros Hm HPR h r h' Hn E. destruct (Hm _ _ _ Hn E) as (L & K & V). split; [exact L|]. split; [exact K|]. intros a Ea. apply HPR, V, Ea. Qed.
Lemma keeps_new n c : keeps n (new c) (fun p => n <= p).
Proof.
  intros h r h' Hn E. unfold new in E. injection E as <- <-. split; [rewrite zlen_app; unfold zlen; cbn; lia|].
  split; [intros p Hp|intros a Ea; injection Ea as <-; exact Hn].
  destruct (Z_lt_le_dec p 0) as [Hneg|Hpos].
  { rewrite !(proj2 (znth_none _ _)); [reflexivity|left; exact Hneg|left; exact Hneg]. }
  apply znth_app_l. lia.
Qed.
Lemma keeps_set n p c : n <= p -> keeps n (set p c) (fun _ => True).
Proof.
  intros Hp h r h' Hn E. unfold set in E. destruct (znth h p) as [c0|] eqn:Ec; injection E as <- <-.
  - rewrite zlen_zupd. split; [lia|]. split; [|auto]. intros q Hq. apply znth_zupd_other. lia.
  - split; [lia|]. split; [reflexivity|discriminate].
Qed.
Lemma keeps_geti n p : keeps n (geti p) (fun _ => True).
Proof. intros h r h' Hn E. unfold geti in E. injection E as <- <-. split; [lia|]. split; [reflexivity|auto]. Qed.
Lemma keeps_getr n p : keeps n (getr p) (fun _ => True).
Proof. intros h r h' Hn E. unfold getr in E. injection E as <- <-. split; [lia|]. split; [reflexivity|auto]. Qed.
Lemma keeps_getf n p : keeps n (getf p) (fun _ => True).
Proof. intros h r h' Hn E. unfold getf in E. injection E as <- <-. split; [lia|]. split; [reflexivity|auto]. Qed.

(* result pointers: new or taken from a list *)
Definition from (n : Z) (ps : list Z) (v : bval) : Prop := Forall (fun p => p = -1 \/ n <= p \/ In p ps) (objects v).
Definition from_o (n : Z) (ps : list Z) (o : option bval) : Prop := match o with Some v => from n ps v | None => True end.

Ltac done_from := cbv beta in *; unfold from_o, from; cbn [objects option_map]; repeat (apply Forall_cons || apply Forall_nil); cbn [In]; try lia; try tauto.

  Ltac kstep :=
    match goal with
    | |- keeps _ (ebind (new _) _) _ => eapply keeps_bind; [apply keeps_new|let p := fresh "p" in let H := fresh "Hp" in intros p H; cbv beta in H]
    | |- keeps _ (ebind (set _ _) _) _ => eapply keeps_bind; [apply keeps_set; lia|intros ? _]
    | |- keeps _ (ebind (geti _) _) _ => eapply keeps_bind; [apply keeps_geti|intros ? _]
    | |- keeps _ (ebind (getr _) _) _ => eapply keeps_bind; [apply keeps_getr|intros ? _]
    | |- keeps _ (ebind (getf _) _) _ => eapply keeps_bind; [apply keeps_getf|intros ? _]
    | |- keeps _ (ebind (elift _) _) _ => eapply keeps_bind; [apply keeps_lift|intros ? _]
    | |- keeps _ (eret _) _ => apply keeps_ret
    | |- keeps _ efail _ => apply keeps_fail
    | |- keeps _ epanic _ => apply keeps_panic
    | |- keeps _ (set _ _) (fun _ => True) => apply keeps_set; lia
    | |- keeps _ (if ?b then _ else _) _ => destruct b
    | |- keeps _ (match ?b with _ => _ end) _ => destruct b
    end.
  Lemma k_iop  n f z x y : n <= z -> keeps n (i_op f z x y) (fun _ => True).
  Proof. intros H. unfold i_op. repeat kstep. Qed.
  Lemma k_rop  n f z x y : n <= z -> keeps n (r_op f z x y) (fun _ => True).
  Proof. intros H. unfold r_op. repeat kstep. Qed.
  Lemma k_rneg  n z x : n <= z -> keeps n (rneg z x) (fun _ => True).
  Proof. intros H. unfold rneg. repeat kstep. Qed.
  Lemma k_rinv  n z x : n <= z -> keeps n (rinv z x) (fun _ => True).
  Proof. intros H. unfold rinv. repeat kstep. Qed.
  Lemma k_fop (rnd : Z -> Q -> fl) n f z x y : n <= z -> keeps n (f_op rnd f z x y) (fun _ => True).
  Proof. intros H. unfold f_op. repeat kstep. Qed.
  Lemma k_fneg (rnd : Z -> Q -> fl) n z x : n <= z -> keeps n (f_neg rnd z x) (fun _ => True).
  Proof. intros H. unfold f_neg. repeat kstep. Qed.
  Lemma k_fsetint (rnd : Z -> Q -> fl) n z x : n <= z -> keeps n (f_setint rnd z x) (fun _ => True).
  Proof. intros H. unfold f_setint. repeat kstep. Qed.
  Lemma k_fsetf64 (rnd : Z -> Q -> fl) n z x : n <= z -> keeps n (f_setf64 rnd z x) (fun _ => True).
  Proof. intros H. unfold f_setf64. repeat kstep. Qed.
  Lemma k_fsqrt (sqt : Z -> Q -> fl) n z x : n <= z -> keeps n (f_sqrt sqt z x) (fun _ => True).
  Proof. intros H. unfold f_sqrt. repeat kstep. Qed.
  Lemma k_fcopy  n x : keeps n (fcopy x) (fun p => n <= p).
  Proof. unfold fcopy. kstep. apply keeps_new. Qed.
  Lemma k_ccopy  n x y : keeps n (ccopy x y) (fun p => n <= fst p /\ n <= snd p).
  Proof.
    unfold ccopy. eapply keeps_bind; [apply k_fcopy|intros p Hp]. eapply keeps_bind; [apply k_fcopy|intros q Hq].
    kstep. cbv beta in *. cbn. lia.
  Qed.
  Lemma k_nin (rnd : Z -> Q -> fl) n x : n <= x -> keeps n (negate_if_negative rnd x) (fun _ => True).
  Proof. intros H. unfold negate_if_negative. repeat kstep; [apply k_fneg; exact H|exact Logic.I]. Qed.
  Ltac kstep2 :=
    match goal with
    | |- keeps _ (ebind (i_op _ _ _ _) _) _ => eapply keeps_bind; [apply k_iop; lia|intros ? _]
    | |- keeps _ (ebind (r_op _ _ _ _) _) _ => eapply keeps_bind; [apply k_rop; lia|intros ? _]
    | |- keeps _ (ebind (rneg _ _) _) _ => eapply keeps_bind; [apply k_rneg; lia|intros ? _]
    | |- keeps _ (ebind (rinv _ _) _) _ => eapply keeps_bind; [apply k_rinv; lia|intros ? _]
    | |- keeps _ (ebind (f_op _ _ _ _ _) _) _ => eapply keeps_bind; [apply k_fop; lia|intros ? _]
    | |- keeps _ (ebind (f_neg _ _ _) _) _ => eapply keeps_bind; [apply k_fneg; lia|intros ? _]
    | |- keeps _ (ebind (f_setint _ _ _) _) _ => eapply keeps_bind; [apply k_fsetint; lia|intros ? _]
    | |- keeps _ (ebind (f_setf64 _ _ _) _) _ => eapply keeps_bind; [apply k_fsetf64; lia|intros ? _]
    | |- keeps _ (ebind (f_sqrt _ _ _) _) _ => eapply keeps_bind; [apply k_fsqrt; lia|intros ? _]
    | |- keeps _ (ebind (fcopy _) _) _ => eapply keeps_bind; [apply k_fcopy|let p := fresh "p" in let H := fresh "Hp" in intros p H; cbv beta in H]
    | |- keeps _ (ebind (ccopy _ _) _) _ => eapply keeps_bind; [apply k_ccopy|let p := fresh "p" in let q := fresh "q" in let H := fresh "Hp" in intros [p q] H; cbn [fst snd] in H; destruct H]
    | |- keeps _ (ebind (negate_if_negative _ _) _) _ => eapply keeps_bind; [apply k_nin; lia|intros ? _]
    | |- keeps _ (ebind (ebind _ _) _) _ => idtac
    | _ => kstep
    end.
  Ltac kgo := unfold newI, newR, newF, some, no; repeat kstep2; try done_from.

  Lemma k_Int_bin  n f i r : keeps n (Int_bin f i r) (from_o n []).  Proof. unfold Int_bin. kgo. Qed.
  Lemma k_Int_Neg  n i : keeps n (Int_Neg i) (from_o n []).  Proof. unfold Int_Neg. kgo. Qed.
  Lemma k_Int_Sgn  n i : keeps n (Int_Sgn i) (from_o n []).  Proof. unfold Int_Sgn. kgo. Qed.
  Lemma k_Int_Div  n i : keeps n (Int_Div i) (from_o n []).  Proof. unfold Int_Div. kgo. Qed.
  Lemma k_Int_Div2  n i r : keeps n (Int_Div2 i r) (from_o n []).  Proof. unfold Int_Div2. kgo. Qed.
  Lemma k_Int_Pow  n i : keeps n (Int_Pow i) (from_o n []).  Proof. unfold Int_Pow. kgo. Qed.
  Lemma k_Int_Pow2  n i r : keeps n (Int_Pow2 i r) (from_o n []).  Proof. unfold Int_Pow2. kgo. Qed.
  Lemma k_Int_Abs  n i : keeps n (Int_Abs i) (from_o n [i]).
  Proof.
    unfold Int_Abs. kstep. kstep.
    - eapply keeps_weaken; [apply k_Int_Neg|]. intros [[]|] HH; cbn in HH |- *; try exact Logic.I; unfold from in *; eapply Forall_impl; try exact HH; cbv beta; cbn [In]; tauto.
    - kgo.
  Qed.
  Lemma k_gamma_loop  n t m k : n <= t -> n <= m -> forall i, keeps n (gamma_loop k t m i) (fun _ => True).
  Proof.
    intros Ht Hm. induction k as [|k IH]; intros i; cbn [gamma_loop]; [kgo; exact Logic.I|]. kstep2. kstep2. apply IH.
  Qed.
  Lemma k_Int_Gamma  n i : keeps n (Int_Gamma i) (from_o n []).
  Proof.
    unfold Int_Gamma, newI, some, no. kstep. kstep; [|kgo]. kstep; [kgo|]. kstep; [kgo|]. kstep2. kstep2.
    eapply keeps_bind; [apply k_gamma_loop; lia|intros _ _]. kgo.
  Qed.
  Lemma k_Int_Gcd  n i r : keeps n (Int_Gcd i r) (from_o n []).  Proof. unfold Int_Gcd. kgo. Qed.
  Lemma k_Rat_bin  n f i r : keeps n (Rat_bin f i r) (from_o n []).  Proof. unfold Rat_bin. kgo. Qed.
  Lemma k_Rat_Neg  n i : keeps n (Rat_Neg i) (from_o n []).  Proof. unfold Rat_Neg. kgo. Qed.
  Lemma k_Rat_Sgn  n i : keeps n (Rat_Sgn i) (from_o n []).  Proof. unfold Rat_Sgn. kgo. Qed.
  Lemma k_Rat_Div  n i : keeps n (Rat_Div i) (from_o n []).  Proof. unfold Rat_Div. kgo. Qed.
  Lemma k_Rat_Div2  n i r : keeps n (Rat_Div2 i r) (from_o n []).  Proof. unfold Rat_Div2. kgo. Qed.
  Lemma k_Rat_Pow  n i : keeps n (Rat_Pow i) (from_o n []).  Proof. unfold Rat_Pow. kgo. Qed.
  Lemma k_Rat_Abs  n i : keeps n (Rat_Abs i) (from_o n [i]).
  Proof.
    unfold Rat_Abs. kstep. kstep.
    - eapply keeps_weaken; [apply k_Rat_Neg|]. intros [[]|] HH; cbn in HH |- *; try exact Logic.I; unfold from in *; eapply Forall_impl; try exact HH; cbv beta; cbn [In]; tauto.
    - kgo.
  Qed.
  Lemma k_Rat_round (f64 : fl -> fl) n f i : keeps n (Rat_round f64 f i) (from_o n []).  Proof. unfold Rat_round. kgo. Qed.
  Lemma k_Rat_Gcd  n i r : keeps n (Rat_Gcd i r) (from_o n []).  Proof. unfold Rat_Gcd. kgo. Qed.
  (* the exponent may be new *)
  Lemma k_Rat_Pow2_new  n l r : n <= r -> keeps n (Rat_Pow2 l r) (from_o n []).
  Proof.
    intros Hr. unfold Rat_Pow2. kgo.
    eapply (keeps_bind _ _ _ (fun _ => True)); [kgo; exact Logic.I|intros neg _]. kgo.
  Qed.
  Lemma k_Float_bin (rnd : Z -> Q -> fl) n f i r : keeps n (Float_bin rnd f i r) (from_o n []).  Proof. unfold Float_bin. kgo. Qed.
  Lemma k_Float_Neg (rnd : Z -> Q -> fl) n i : keeps n (Float_Neg rnd i) (from_o n []).  Proof. unfold Float_Neg. kgo. Qed.
  Lemma k_Float_Sgn  n i : keeps n (Float_Sgn i) (from_o n []).  Proof. unfold Float_Sgn. kgo. Qed.
  Lemma k_Float_Div2 (rnd : Z -> Q -> fl) n i r : keeps n (Float_Div2 rnd i r) (from_o n []).  Proof. unfold Float_Div2. kgo. Qed.
  Lemma k_Float_Div (rnd : Z -> Q -> fl) n i : keeps n (Float_Div rnd i) (from_o n []).
  Proof. unfold Float_Div. kstep. apply k_Float_Div2. Qed.
  Lemma k_Float_Pow (fexp : flt -> flt) n i : keeps n (Float_Pow fexp i) (from_o n []).  Proof. unfold Float_Pow. kgo. Qed.
  Lemma k_Float_Pow2 (fpow : flt -> flt -> flt) n i r : keeps n (Float_Pow2 fpow i r) (from_o n []).  Proof. unfold Float_Pow2. kgo. Qed.
  Lemma k_Float_Log (flog : flt -> flt) n i : keeps n (Float_Log flog i) (from_o n []).  Proof. unfold Float_Log. kgo. Qed.
  Lemma k_Float_Log2 (rnd : Z -> Q -> fl) (flog : flt -> flt) n i r : keeps n (Float_Log2 rnd flog i r) (from_o n []).  Proof. unfold Float_Log2. kgo. Qed.
  Lemma k_Float_Abs (rnd : Z -> Q -> fl) n i : keeps n (Float_Abs rnd i) (from_o n [i]).
  Proof.
    unfold Float_Abs. kstep. kstep.
    - eapply keeps_weaken; [apply k_Float_Neg|]. intros [[]|] HH; cbn in HH |- *; try exact Logic.I; unfold from in *; eapply Forall_impl; try exact HH; cbv beta; cbn [In]; tauto.
    - kgo.
  Qed.
  Lemma k_Float_round (rnd : Z -> Q -> fl) (f64 : fl -> fl) n f i : keeps n (Float_round rnd f64 f i) (from_o n []).  Proof. unfold Float_round. kgo. Qed.
  Lemma k_Complex_Conj (rnd : Z -> Q -> fl) n i j : keeps n (Complex_Conj rnd i j) (from_o n []).  Proof. unfold Complex_Conj. kgo. Qed.
  Lemma k_Complex_Neg (rnd : Z -> Q -> fl) n i j : keeps n (Complex_Neg rnd i j) (from_o n []).  Proof. unfold Complex_Neg. kgo. Qed.
  Lemma k_Complex_bin (rnd : Z -> Q -> fl) n f i j k l : keeps n (Complex_bin rnd f i j k l) (from_o n []).  Proof. unfold Complex_bin. kgo. Qed.
  Lemma k_cabs (rnd : Z -> Q -> fl) (sqt : Z -> Q -> fl) n i j : n <= i -> n <= j -> keeps n (cabs rnd sqt i j) (fun p => n <= p).
  Proof.
    intros Hi Hj. unfold cabs. kstep2. kstep2. kstep2. kstep2.
    match goal with |- context [match f_cmp ?a ?b with _ => _ end] => destruct (f_cmp a b) end; kgo.
  Qed.
  Lemma k_Complex_Mul2 (rnd : Z -> Q -> fl) n i j k l : keeps n (Complex_Mul2 rnd i j k l) (from_o n []).  Proof. unfold Complex_Mul2. kgo. Qed.
  Lemma k_div (rnd : Z -> Q -> fl) n a b c d : keeps n (div_ rnd a b c d) (fun p => n <= fst p /\ n <= snd p).
  Proof. unfold div_. kgo; cbv beta in *; cbn; lia. Qed.
  Lemma k_Complex_Div2 (rnd : Z -> Q -> fl) n i j k l : keeps n (Complex_Div2 rnd i j k l) (from_o n []).
  Proof.
    unfold Complex_Div2, some. do 4 kstep2. kstep2; [kgo|]. kstep2; [kgo|].
    do 10 kstep2.
    match goal with |- context [match f_cmp ?a ?b with _ => _ end] => destruct (f_cmp a b) end;
      (eapply keeps_bind; [apply k_div|intros [e f] [He Hf]; cbn in He, Hf]; kgo).
  Qed.
  Lemma k_Complex_Div (rnd : Z -> Q -> fl) n i j : keeps n (Complex_Div rnd i j) (from_o n []).
  Proof. unfold Complex_Div. kstep2. kstep2. kstep2. apply k_Complex_Div2. Qed.
  Lemma k_Complex_Abs (rnd : Z -> Q -> fl) (sqt : Z -> Q -> fl) n i j : keeps n (Complex_Abs rnd sqt i j) (from_o n []).
  Proof. unfold Complex_Abs. kstep2. eapply keeps_bind; [apply k_cabs; lia|intros r Hr]. kgo. Qed.
  Lemma k_Complex_Floor (rnd : Z -> Q -> fl) (f64 : fl -> fl) n i j : keeps n (Complex_Floor rnd f64 i j) (from_o n []).
  Proof.
    unfold Complex_Floor. cbv zeta.
    set (pick := fun o : option bval => match o with Some (VF p) => p | _ => -1 end).
    assert (Hpick : forall o, from_o n [] o -> pick o = -1 \/ n <= pick o).
    { intros [[]|] HH; cbn in *; try (left; reflexivity). inversion HH; subst. cbn in *. tauto. }
    eapply keeps_bind; [apply k_Float_round|intros fa Hfa]. eapply keeps_bind; [apply k_Float_round|intros fb Hfb].
    eapply keeps_bind; [apply k_Float_bin|intros afa Hafa]. eapply keeps_bind; [apply k_Float_bin|intros bfb Hbfb].
    eapply keeps_bind; [apply k_Float_bin|intros sum Hsum].
    pose proof (Hpick _ Hfa). pose proof (Hpick _ Hfb).
    unfold newF. do 4 kstep2.
    match goal with |- context [match f_cmp ?a ?b with _ => _ end] => destruct (f_cmp a b) end; [| |];
      try solve [kgo; done_from]; kgo; done_from.
  Qed.
  Lemma k_Complex_Ceil (rnd : Z -> Q -> fl) (f64 : fl -> fl) n i j : keeps n (Complex_Ceil rnd f64 i j) (from_o n []).
  Proof.
    unfold Complex_Ceil, no. eapply keeps_bind; [apply k_Complex_Neg|intros z Hz].
    destruct z as [[]|]; try (kgo; fail). eapply keeps_bind; [apply k_Complex_Floor|intros w Hw].
    destruct w as [[]|]; try (kgo; fail). apply k_Complex_Neg.
  Qed.
