(* Prop_ParseData.v -- reading data: L⍎S (C165). *)
From Coq Require Import String Lia.
From Verif Require Import Base M_Array S_Array P_Array M_Number S_Number P_Number P_Tower M_Scalar P_Scalar M_Dict S_Dict M_Table S_Table P_Table
  M_Scan S_Scan P_Scan M_Strings M_Format S_Format P_Format P_Format2 P_Format3 Prop_Format M_ParseData.
Open Scope Z_scope.

(* the types of arrays that hold values of one type only *)
Inductive kind := Bools | Ints | Strings | Numbers_of (ty : Z).
Definition of_kind {P} (r : rep P) (k : kind) : Prop :=
  match k, r with
  | Bools, RBools _ | Ints, RInts _ | Strings, RStrings _ => True
  | Numbers_of ty, RNums ty' _ => ty = ty'
  | _, _ => False
  end.
Definition loose {P} (r : rep P) : Prop := forall k, ~ of_kind r k.

Lemma uniform_kind {P} (r : rep P) : isUniform r = true <-> exists k, of_kind r k.
Proof.
  split.
  - destruct r; try discriminate; intros _; [exists Bools|exists Ints|exists Strings|exists (Numbers_of ty)]; cbn; auto.
  - intros (k & H). destruct k, r; try contradiction; reflexivity.
Qed.
Lemma same_kind {P} (a b : rep P) k : of_kind b k -> same_array_type a b = true -> of_kind a k.
Proof. destruct k, b; try contradiction; destruct a; try discriminate; cbn; intros; auto. apply Z.eqb_eq in H0. congruence. Qed.
Lemma kind_same {P} (a b : rep P) k : of_kind a k -> of_kind b k -> same_array_type a b = true.
Proof. destruct k, a; try contradiction; destruct b; try contradiction; cbn; intros; auto. subst. apply Z.eqb_refl. Qed.
(* arrays with the same non-empty contents have the same kind *)
Lemma kind_view {P} (M : methods P) (a b : rep P) k : isUniform a = true -> rep_ok M a -> rep_ok M b -> of_kind b k -> view a = view b -> elems (view b) <> [] -> of_kind a k.
Proof.
  intros U (_ & Ra) (_ & Rb) K E N.
  destruct a as [a|l|a|a|a|ty a|]; try discriminate U; destruct b as [b|l'|b|b|b|ty' b|]; destruct k; try contradiction; cbn [of_kind] in *; auto;
    cbn [view] in *; unfold amap in *; injection E as Ed Ee; cbn [elems] in N;
    try (destruct (elems b); cbn [map] in *; [congruence|]; destruct (elems a); discriminate Ee).
  destruct (elems b) as [|y l'] eqn:Eb; cbn [map] in *; [congruence|]. destruct (elems a) as [|x l] eqn:Ea; [discriminate Ee|].
  injection Ee as Ex _. subst y. inversion Ra; subst. inversion Rb; subst. reflexivity.
Qed.

(* what is read from a text is a proper array, with at least one element; a text never makes the reader panic *)
Lemma nonempty_elems {A} (v : arr A) : nonempty v -> elems v <> [].
Proof.
  intros NE. destruct (nonempty_facts v NE) as (PD & L & _). intros X. rewrite X in L. destruct (dims v) as [|d ds] eqn:Ed; [destruct NE as ((Q & _) & _); contradiction|].
  inversion PD; subst. destruct (nsize_cons d ds H1 H2) as (_ & Q). cbn [length] in L. lia.
Qed.
Section Proper.
  Context {A : Type} (C : scanner) (num : text -> option A) (str : text -> A).
  Definition shape_ok (n : Z) (shape : list Z) : Prop := Forall (fun d => 1 <= d) shape /\ (shape <> [] -> 1 <= size shape <= n).
  Lemma extend_ok n shape : 1 <= n -> shape_ok n shape -> exists shape', extend n shape = Ok shape' /\ shape_ok n shape'.
  Proof.
    intros Hn (F & B). destruct shape as [|d ds]; [exists [n]; split; [reflexivity|]; split; [repeat constructor; lia|intros _; cbn; lia]|].
    specialize (B ltac:(discriminate)). unfold extend. rewrite Prod_size by discriminate. set (p := size (d :: ds)) in *. replace (p =? 0) with false by lia.
    rewrite Z.quot_div_nonneg by lia. assert (Q : 1 <= n / p) by (apply Z.div_le_lower_bound; lia). pose proof (Z.mul_div_le n p ltac:(lia)).
    eexists. split; [reflexivity|]. split; [constructor; [exact Q|exact F]|]. intros _. change (size (n / p :: d :: ds)) with (n / p * p). nia.
  Qed.
  Lemma shape_grow n m shape : n <= m -> shape_ok n shape -> shape_ok m shape.
  Proof. intros L (F & B). split; [exact F|]. intros H. specialize (B H). lia. Qed.
  Lemma readString_safe s : ReadString C s <> Panic.
  Proof.
    destruct s as [|r s]; [discriminate|]. unfold ReadString. destruct (negb _); [discriminate|]. destruct (r =? r_tick); [discriminate|].
    assert (Q : forall w, readQuote w <> Panic) by (intros w; destruct (readQuote_inv (length w) w ltac:(lia)) as [(a & _ & ->)|(a & b & _ & _ & ->)]; discriminate).
    assert (D : forall w a e, readDouble C a e w <> Panic) by (intros w; induction w as [|x w IH]; intros a e; cbn [readDouble]; [discriminate|]; destruct (e && _ && _); [apply IH|]; destruct (negb _ && _); [destruct (s_unquote C _); discriminate|apply IH]).
    destruct (r =? r_quote); [apply Q|apply D].
  Qed.
  Lemma loop_proper fuel : forall values c shape s, shape_ok (zlen values) shape -> (values = [] -> shape = []) ->
    scan_loop C num str fuel (-1) values c shape s <> Panic /\
    forall v sh rest, scan_loop C num str fuel (-1) values c shape s = Ok (Ended v sh rest) -> shape_ok (zlen v) sh.
  Proof.
    induction fuel as [|fuel IH]; intros values c shape s H N; cbn [scan_loop].
    - destruct s; split; try discriminate. intros v sh rest E. injection E as <- <- <-. exact H.
    - destruct s as [|r s']; [split; [discriminate|]; intros v sh rest E; injection E as <- <- <-; exact H|].
      destruct (closing r).
      + destruct values as [|x values]; [apply IH; assumption|]. cbn zeta. destruct (c + 1 =? -1) eqn:Ec.
        * split; [discriminate|]. intros v sh rest E. injection E as <- <- <-. exact H.
        * assert (N1 : 1 <= zlen (x :: values)) by (rewrite zlen_cons; pose proof (zlen_nonneg values); lia).
          destruct (zlen shape <? c + 1); cbn [obind]; [|apply IH; [exact H|discriminate]].
          destruct (extend_ok _ _ N1 H) as (sh' & E' & H'). rewrite E'. cbn [obind]. apply IH; [exact H'|discriminate].
      + destruct (skipped C r); [apply IH; assumption|]. assert (G : forall w, shape_ok (zlen (values ++ [w])) shape) by (intros w; eapply shape_grow; [|exact H]; rewrite zlen_app; change (zlen [w]) with 1; lia).
        assert (G2 : forall w, values ++ [w] = [] -> shape = []) by (intros w X; destruct values; discriminate X).
        destruct (r =? r_dquote).
        * pose proof (readString_safe (r :: s')) as RS. destruct (ReadString C (r :: s')) as [wr| |]; cbn [obind]; [|split; discriminate|congruence]. apply IH; [apply G|apply G2].
        * destruct (ScanNumber (r :: s')) as (w, rest0). destruct (num w); [|split; discriminate]. apply IH; [apply G|apply G2].
  Qed.
  Theorem read_proper s : ParseArray C num str s <> Panic /\ forall c, ParseArray C num str s = Ok c -> exists v, c = Cell v /\ nonempty v.
  Proof.
    unfold ParseArray, ScanRankArray. destruct (loop_proper (length s) [] 0 [] s) as (NP & HP); [split; [constructor|congruence]|reflexivity|].
    assert (NF : forall x rest, scan_loop C num str (length s) (-1) [] 0 [] s <> Ok (Found x rest)).
    { generalize (length s) as n, (@nil A) as values, 0 as c, (@nil Z) as shape. intros n. revert s NP HP. clear. intros s _ _. revert s. induction n as [|n IH]; intros s values c shape x rest; cbn [scan_loop]; [destruct s; discriminate|].
      destruct s as [|r s']; [discriminate|]. destruct (closing r).
      - destruct values; [apply IH|]. destruct (c + 1 =? -1); [discriminate|]. destruct (if zlen shape <? c + 1 then _ else _); cbn [obind]; [apply IH|discriminate|discriminate].
      - destruct (skipped C r); [apply IH|]. destruct (r =? r_dquote); [destruct (ReadString C (r :: s')); cbn [obind]; [apply IH|discriminate|discriminate]|].
        destruct (ScanNumber (r :: s')) as (w, rest0). destruct (num w); [apply IH|discriminate]. }
    destruct (scan_loop C num str (length s) (-1) [] 0 [] s) as [[x rest|values shape rest]| |]; cbn [obind]; [exfalso; exact (NF x rest eq_refl)| |split; discriminate|congruence].
    destruct values as [|x values]; [split; [discriminate|]; intros c E; discriminate E|]. destruct (HP _ _ _ eq_refl) as (F & B). cbn zeta.
    set (n := zlen (x :: values)) in *. assert (N1 : 1 <= n) by (unfold n; rewrite zlen_cons; pose proof (zlen_nonneg values); lia). change (-1 <? 0) with true. cbn iota.
    assert (OK : forall sh, sh <> [] -> Forall (fun d => 1 <= d) sh -> size sh = n -> nonempty (mkArr sh (x :: values))).
    { intros sh H1 H2 H3. split; [|exact H2]. split; [exact H1|]. split; [eapply Forall_impl; [|exact H2]; cbn; intros; lia|]. cbn [elems dims]. unfold n in H3. lia. }
    destruct (Prod shape =? n) eqn:E.
    - assert (SN : shape <> []) by (intros ->; apply Z.eqb_eq in E; cbn in E; lia). apply Z.eqb_eq in E. rewrite Prod_size in E by exact SN.
      cbn [lead_axes]. replace (0 <=? zlen shape - 1 - zlen shape) with false by lia. cbn [obind]. split; [discriminate|]. intros c X. injection X as <-. eexists. split; [reflexivity|]. apply OK; assumption.
    - pose proof (zlen_nonneg shape) as Z0. replace (Z.to_nat (zlen shape + 1)) with (S (Z.to_nat (zlen shape))) by lia. cbn [lead_axes]. replace (0 <=? zlen shape - zlen shape) with true by lia.
      set (p := match shape with [] => 1 | _ => Prod shape end).
      assert (Hp : p = size shape) by (unfold p; destruct shape; [reflexivity|apply Prod_size; discriminate]).
      assert (P1 : 1 <= p <= n). { rewrite Hp. destruct shape as [|d ds]; [cbn; lia|]. apply B. discriminate. }
      replace (p =? 0) with false by lia. rewrite Prod_size by discriminate. rewrite Z.quot_div_nonneg by lia.
      destruct (size (n / p :: shape) =? n) eqn:E2; [|split; discriminate].
      rewrite zlen_cons. replace (0 + 1 <=? zlen shape - (1 + zlen shape)) with false by lia. cbn [obind]. split; [discriminate|]. intros c X. injection X as <-. eexists. split; [reflexivity|].
      apply OK; [discriminate| |lia]. constructor; [apply Z.div_le_lower_bound; lia|exact F].
  Qed.
  (* every element that is read has been made from a number or a string of the text *)
  Lemma read_elements (Q : A -> Prop) : (forall w x, num w = Some x -> Q x) -> (forall w, Q (str w)) -> forall s v, ParseArray C num str s = Ok (Cell v) -> Forall Q (elems v).
  Proof.
    intros QN QS s v. unfold ParseArray, ScanRankArray.
    assert (L : forall n values c shape s v sh rest, Forall Q values -> scan_loop C num str n (-1) values c shape s = Ok (Ended v sh rest) -> Forall Q v).
    { clear s v. induction n as [|n IH]; intros values c shape s v sh rest F; cbn [scan_loop]; [destruct s; intros E; try discriminate E; injection E as <- _ _; exact F|].
      destruct s as [|r s']; [intros E; injection E as <- _ _; exact F|]. destruct (closing r).
      - destruct values as [|y values]; [apply IH; exact F|]. destruct (c + 1 =? -1); [intros E; injection E as <- _ _; exact F|].
        destruct (if zlen shape <? c + 1 then _ else _); cbn [obind]; [apply IH; exact F|discriminate|discriminate].
      - destruct (skipped C r); [apply IH; exact F|]. destruct (r =? r_dquote).
        + destruct (ReadString C (r :: s')); cbn [obind]; [|discriminate|discriminate]. apply IH. apply Forall_app. split; [exact F|repeat constructor; apply QS].
        + destruct (ScanNumber (r :: s')) as (w, rest0). destruct (num w) eqn:Ew; [|discriminate]. apply IH. apply Forall_app. split; [exact F|repeat constructor; eapply QN; exact Ew]. }
    destruct (scan_loop C num str (length s) (-1) [] 0 [] s) as [[x rest|values shape rest]| |] eqn:E; cbn [obind]; try discriminate.
    specialize (L _ _ _ _ _ _ _ _ (Forall_nil _) E). destruct values as [|x values]; [discriminate|]. cbn zeta. destruct (lead_axes _ _ _ _ _); cbn [obind]; try discriminate. intros X. injection X as <-. exact L.
  Qed.
End Proper.

Section C165.
  Context {P : Type} (M : methods P) (t : tower P) (hu : ntype -> bool).
  Context (C : scanner) (num : text -> option (sval P)) (str : text -> sval P) (show : sval P -> text).
  Local Notation read := (parseData M t hu C num str).
  Local Notation text_array := (ParseArray C num str).

  (* an array of one type as L: the result has that type, or there is an error *)
  Theorem C165_type : forall u k s r, of_kind u k -> read (PArr u) s = Ok r -> of_kind r k.
  Proof.
    intros u k s r K E. unfold parseData, ParseArrayAs in E. destruct (text_array s) as [c| |]; try discriminate E. cbn [obind] in E.
    rewrite (proj2 (uniform_kind u)) in E by (exists k; exact K). destruct c as [x|v]; [discriminate E|].
    destruct (Unify M t hu (RMixed v) true) as [[w ok]| |]; try discriminate E. cbn [obind fst snd] in E.
    destruct ok; [|discriminate E]. destruct (same_array_type w u) eqn:T; [|discriminate E]. injection E as <-. eapply same_kind; eassumption.
  Qed.
  (* its elements are those of the text, or numbers raised to the type of one of them *)
  Theorem C165_contents : forall u k s r v, tower_ok M t -> imports_bottom M t -> of_kind u k -> text_array s = Ok (Cell v) -> (forall x, In x (elems v) -> plain M t hu x) ->
    read (PArr u) s = Ok r -> dims (view r) = dims v /\ unified M t (elems v) (elems (view r)).
  Proof.
    intros u k s r v TO IB K Ev Pl E. destruct (proj2 (read_proper C num str s) _ Ev) as (v' & Ec & NE). injection Ec as <-. pose proof (proj1 NE) as W. pose proof (nonempty_elems v NE) as N. unfold parseData, ParseArrayAs in E. rewrite Ev in E. cbn [obind] in E.
    rewrite (proj2 (uniform_kind u)) in E by (exists k; exact K). destruct v as [d vs]. cbn [dims elems] in *.
    destruct (unify_uptype M t hu vs d TO IB W N Pl) as (w & ok & Eu & H). rewrite Eu in E. cbn [obind fst snd] in E.
    destruct ok; [|discriminate E]. destruct (same_array_type w u); [|discriminate E]. injection E as <-. destruct (H eq_refl) as (H1 & H2 & _). split; assumption.
  Qed.
  (* no text makes it panic *)
  Theorem C165_no_panic : forall L s, tower_ok M t -> imports_bottom M t -> (forall w x, num w = Some x -> plain M t hu x) -> (forall w, plain M t hu (str w)) -> read L s <> Panic.
  Proof.
    intros L s TO IB PN PS. destruct (read_proper C num str s) as (NP & HP).
    assert (G : forall p, ParseArrayAs M t hu C num str p s <> Panic).
    { intros p. unfold ParseArrayAs. destruct (text_array s) as [c| |] eqn:Ec; cbn [obind]; [|discriminate|congruence]. destruct (HP c eq_refl) as (v & -> & NE).
      destruct p as [u|]; [|discriminate]. destruct (isUniform u); [|discriminate]. destruct v as [d vs].
      destruct (unify_uptype M t hu vs d TO IB (proj1 NE) (nonempty_elems _ NE)) as (w & ok & Eu & _).
      - intros x Hx. assert (El : Forall (plain M t hu) vs) by (apply (read_elements C num str (plain M t hu) PN PS s _ Ec)). rewrite Forall_forall in El. exact (El x Hx).
      - rewrite Eu. cbn [obind fst snd]. destruct ok; [|discriminate]. destruct (same_array_type w u); discriminate. }
    destruct L as [w|u| | |]; try discriminate; cbn [parseData]; [|apply G].
    destruct w as [|a [|b w]]; try discriminate; repeat match goal with |- context [match ?x with _ => _ end] => destruct x end; try discriminate; apply G.
  Qed.
  (* A, or an array that is not of one type: the array of the text, as it is *)
  Theorem C165_any : forall L s v, L = PText [65] \/ (exists u, L = PArr u /\ loose u) -> text_array s = Ok (Cell v) -> read L s = Ok (RMixed v).
  Proof.
    intros L s v HL Ev. destruct HL as [->|(u & -> & Lu)]; unfold parseData, ParseArrayAs; rewrite Ev; cbn [obind]; [reflexivity|].
    replace (isUniform u) with false; [reflexivity|]. symmetry. destruct (isUniform u) eqn:U; [|reflexivity]. apply uniform_kind in U. destruct U as (k & U). contradiction (Lu k U).
  Qed.
  (* a text that is no array is an error with every L *)
  Theorem C165_unreadable : forall L s, text_array s = Err -> read L s = Err.
  Proof.
    intros L s E. destruct L as [w|u| | |]; try reflexivity; cbn [parseData]; unfold ParseArrayAs; rewrite E; [|reflexivity].
    destruct w as [|a [|b w]]; try reflexivity; unfold ParseDict, ParseTable; repeat match goal with |- context [match ?x with _ => _ end] => destruct x end; reflexivity.
  Qed.

  (* an array is read back from its text with itself as L: the same elements, shape and type *)
  Section Back.
    Context (u : rep P) (k : kind) (K : of_kind u k) (R : rep_ok M u) (NE : nonempty (view u)).
    Context (HR : readable_elems C num str show (view u)) (Pl : forall x, In x (elems (view u)) -> plain M t hu x).
    Lemma back_read s : text_array s = Ok (Cell (view u)) -> exists r, read (PArr u) s = Ok r /\ view r = view u /\ of_kind r k.
    Proof.
      intros E. assert (U : isUniform u = true) by (apply uniform_kind; exists k; exact K). assert (N : elems (view u) <> []).
      { destruct (nonempty_facts (view u) NE) as (PD & L & _). intros X. rewrite X in L. destruct (dims (view u)) as [|d ds] eqn:Ed; [destruct NE as ((Q & _) & _); contradiction|].
        inversion PD; subst. destruct (nsize_cons d ds H1 H2) as (_ & Q). cbn [length] in L. lia. }
      unfold parseData, ParseArrayAs. rewrite E. cbn [obind]. rewrite U.
      destruct (view u) as [d vs] eqn:V. cbn [elems dims] in *.
      destruct (unify_one_type M t hu vs d true) as (r & Er & Vr & Ur & Rr); [|apply NE|exact N|exact Pl|].
      - pose proof (rep_one_type M u R U) as O. rewrite V in O. exact O.
      - rewrite Er. cbn [obind fst snd]. assert (Kr : of_kind r k) by (eapply (kind_view M); [exact Ur|exact Rr|exact R|exact K|congruence|rewrite V; exact N]).
        rewrite (kind_same r u k Kr K). exists r. split; [reflexivity|]. split; assumption.
    Qed.
    Theorem C165_json : exists s r, jsonArray show (view u) = Ok s /\ read (PArr u) s = Ok r /\ view r = view u /\ of_kind r k.
    Proof. destruct (C112_json C num str show (view u) NE HR) as (s & E1 & E2). destruct (back_read s E2) as (r & H). exists s, r. split; [exact E1|exact H]. Qed.
    Theorem C165_table : forall pad, (zlen (dims (view u)) = 1 \/ exists d s, dims (view u) = d :: s /\ 2 <= d) ->
      exists r, read (PArr u) (tableArray show pad (view u)) = Ok r /\ view r = view u /\ of_kind r k.
    Proof. intros pad H. apply back_read. apply C112_table_same; assumption. Qed.
    Theorem C165_matrix : (exists n, dims (view u) = [n]) \/ (exists r c, dims (view u) = [r; c] /\ 2 <= r) ->
      exists s r, matArray show (view u) = Ok s /\ read (PArr u) s = Ok r /\ view r = view u /\ of_kind r k.
    Proof. intros H. destruct (C112_matrix C num str show (view u) NE HR H) as (s & E1 & E2). destruct (back_read s E2) as (r & H'). exists s, r. split; [exact E1|exact H']. Qed.
  End Back.

  (* Finding: dictionaries and tables are not read, neither with D and T nor with themselves as L
     (object.go:158, table.go:170). *)
  Theorem C165_dict_refuted : forall s, read (PText [68]) s = Err /\ read (PText [84]) s = Err /\ read PDict s = Err /\ read PTable s = Err.
  Proof. intros s. repeat split; reflexivity. Qed.

  (* Finding: an array of floats that are all whole numbers is refused with itself as L: its text is
     the text of integers (2.0 is written as 2), and the result would be an array of integers. *)
  Definition as_ints (a : arr Z) : arr (sval P) := mkArr (dims a) (map (fun z => VNum (NI z)) (elems a)).
  Theorem C165_whole_refuted : forall ty (a : arr P) (b : arr Z) s, nonempty (as_ints b) -> hu TI = true -> dims b = dims a ->
    Forall2 (fun p z => show (VNum (NT p)) = show (VNum (NI z)) /\ readable C num str (show (VNum (NI z))) (VNum (NI z))) (elems a) (elems b) ->
    jsonArray show (view (RNums ty a)) = Ok s -> read (PArr (RNums ty a)) s = Err.
  Proof.
    intros ty a b s NE HI D F Es.
    assert (J : jsonArray show (view (RNums ty a)) = jsonArray show (as_ints b)).
    { unfold jsonArray, as_ints. cbn [view amap dims elems]. rewrite D. f_equal. rewrite !map_map. clear - F. induction F as [|p z l l' (H & _) _ IH]; [reflexivity|]. cbn [map]. rewrite H, IH. reflexivity. }
    assert (RE : readable_elems C num str show (as_ints b)).
    { unfold readable_elems, as_ints. cbn [elems]. clear - F. induction F as [|p z l l' (_ & H) _ IH]; cbn [map]; constructor; assumption. }
    rewrite J in Es. destruct (C112_json C num str show (as_ints b) NE RE) as (s' & E1 & E2). rewrite Es in E1. injection E1 as <-.
    unfold parseData, ParseArrayAs. rewrite E2. cbn [obind isUniform].
    assert (N : elems (as_ints b) <> []).
    { destruct (nonempty_facts (as_ints b) NE) as (PD & L & _). intros X. rewrite X in L. destruct (dims (as_ints b)) as [|d ds] eqn:Ed; [destruct NE as ((Q & _) & _); contradiction|].
      inversion PD; subst. destruct (nsize_cons d ds H1 H2) as (_ & Q). cbn [length] in L. lia. }
    destruct (unify_one_type M t hu (elems (as_ints b)) (dims (as_ints b)) true) as (r & Er & Vr & Ur & Rr); [| |exact N| |].
    - intros v w Hv Hw. apply in_map_iff in Hv, Hw. destruct Hv as (x & <- & _), Hw as (y & <- & _). reflexivity.
    - destruct NE as (W & _). destruct (as_ints b). exact W.
    - intros v Hv. apply in_map_iff in Hv. destruct Hv as (x & <- & _). split; [discriminate|exact HI].
    - change (mkArr (dims (as_ints b)) (elems (as_ints b))) with (as_ints b) in *. rewrite Er. cbn [obind fst snd].
      destruct r as [x|x|x|x|x|ty' x|]; try discriminate Ur; try reflexivity. exfalso.
      cbn [view] in Vr. unfold amap, as_ints in Vr. injection Vr as _ Vr. unfold as_ints in N. cbn [elems] in N. destruct (elems b), (elems x); cbn [map] in *; try discriminate Vr; congruence.
  Qed.
End C165.
Print Assumptions C165_type. Print Assumptions C165_no_panic. Print Assumptions C165_contents. Print Assumptions C165_any. Print Assumptions C165_unreadable.
Print Assumptions C165_json. Print Assumptions C165_table. Print Assumptions C165_matrix. Print Assumptions C165_dict_refuted. Print Assumptions C165_whole_refuted.

(* (2 2⍴9)⍎"[[1,¯2],[30,4]]" *)
Definition ex_to {P} (e : elt Empty_set) : sval P :=
  match e with EBool b => VNum (NB b) | EInt z => VNum (NI z) | EString s => VOth strT ""%string | EOther x => match x with end end.
Definition ex_num {P} (w : text) : option (sval P) := option_map ex_to (exnum w).
Definition ex_str {P} (_ : text) : sval P := VOth strT ""%string.
Definition ex_show {P} (v : sval P) : text := match v with VNum (NI z) => intString z | VNum (NB b) => boolString b | _ => [] end.
Example C165_example : forall P (M : methods P) (t : tower P) hu, hu TI = true ->
  exists s r, jsonArray ex_show (view (@RInts P (mkArr [2; 2] [1; -2; 30; 4]))) = Ok s /\ s = [91; 91; 49; 44; 175; 50; 93; 44; 91; 51; 48; 44; 52; 93; 93] /\
    parseData M t hu exC ex_num ex_str (PArr (RInts (mkArr [2; 2] [1; -2; 30; 4]))) s = Ok r /\ view r = view (@RInts P (mkArr [2; 2] [1; -2; 30; 4])) /\ of_kind r Ints.
Proof.
  intros P M t hu H.
  destruct (C165_json M t hu exC ex_num ex_str ex_show (RInts (mkArr [2; 2] [1; -2; 30; 4])) Ints) as (s & r & E & X).
  - exact Logic.I.
  - split; [intros _|exact Logic.I]. split; [discriminate|split; [repeat (constructor; [lia|]); constructor|reflexivity]].
  - split; [split; [discriminate|split; [repeat (constructor; [lia|]); constructor|reflexivity]]|repeat (constructor; [cbn; lia|]); constructor].
  - unfold readable_elems. cbn [view amap elems map]. repeat (apply Forall_cons; [left; split; [discriminate|]; split; [repeat constructor|reflexivity]|]). apply Forall_nil.
  - intros x Hx. cbn [view amap elems map In] in Hx. destruct Hx as [<-|[<-|[<-|[<-|[]]]]]; (split; [discriminate|exact H]).
  - exists s, r. split; [exact E|]. split; [|exact X]. injection E as <-. reflexivity.
Qed.
