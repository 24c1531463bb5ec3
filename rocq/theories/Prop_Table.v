(* Prop_Table.v -- tables: construction by transposition (C58), indexing (C102), the array of
   a table (C103). *)
From Coq Require Import String.
From Verif Require Import Base M_Array S_Array P_Array M_Structural P_Transpose M_Number S_Number P_Number P_Tower M_Scalar P_Scalar M_Dict S_Dict P_Dict S_Operators M_Table S_Table P_Table P_Table2 P_Table3.
Open Scope Z_scope.

Section C58.
  Context {P : Type} (M : methods P) (t : tower P) (hu : ntype -> bool) {K : Type} (keq : K -> K -> bool) (Hk : key_equality keq).
  Local Notation sv := (sval P).
  Local Notation table := (@table P K).
  Local Notation dval := (@dval P).
  Local Notation flip := (transposeObject M t hu keq).

  Lemma vector_dims (r : rep P) n : vector r n -> r <> REmpty /\ shape r = [n].
  Proof. intros (H & _). split; [intros ->; discriminate H|exact H]. Qed.
  Lemma make_ok (d : dict K dval) k v vs : At keq d k = Some v -> column_of M v vs -> vs <> [] -> one_type M vs -> (forall x, In x vs -> plain M t hu x) ->
    exists c, make_column M t hu keq d k = Ok (zlen vs, c) /\ isUniform c = true /\ rep_ok M c /\ vector c (zlen vs) /\ elems (view c) = vs.
  Proof.
    intros E Hc Hne H1 Hp. unfold make_column. rewrite E. inversion Hc as [s E1 E2|r Hr Hv E1 E2]; subst.
    - cbn [shape view dims]. destruct (unify_one_type M t hu [s] [1] true H1 (wf_vec [s]) Hne Hp) as (c & Ec & V & U & R).
      rewrite Ec. cbn [obind fst snd]. exists c. split; [reflexivity|]. split; [exact U|]. split; [exact R|]. unfold vector. rewrite V. split; [split; reflexivity|reflexivity].
    - destruct (vector_dims r _ Hv) as (Hne' & Hs). rewrite Hs. destruct (unify_one_type_any M t hu r true Hne' Hr Hne H1 Hp) as (c & Ec & V & U & R).
      rewrite Ec. cbn [obind fst snd]. exists c. split; [reflexivity|]. split; [exact U|]. split; [exact R|]. unfold vector. rewrite V. split; [exact Hv|reflexivity].
  Qed.

  (* ⍉D: a dictionary whose entries are vectors of n values, each of one type, becomes the
     table with these columns *)
  Theorem C58_table (d : dict K dval) n : proper keq d -> keysOf d <> [] -> 0 < n ->
    (forall k v, At keq d k = Some v -> exists vs, column_of M v vs /\ zlen vs = n /\ one_type M vs /\ (forall x, In x vs -> plain M t hu x)) ->
    exists T, flip d = Ok T /\ good M keq T /\ keysOf (tdict T) = keysOf d /\ Rows T = n /\
      forall k v vs i, At keq d k = Some v -> column_of M v vs -> cell keq T i k = znth vs i.
  Proof.
    intros Hd Hne H0 H.
    assert (Hcs : exists cs, Forall2 (fun k c => make_column M t hu keq d k = Ok (n, c)) (keysOf d) cs /\
      Forall2 (fun k c => isUniform c = true /\ rep_ok M c /\ vector c n /\ forall v vs, At keq d k = Some v -> column_of M v vs -> elems (view c) = vs) (keysOf d) cs).
    { destruct Hd as (_ & Hp). assert (G : forall ks, (forall k, In k ks -> In k (keysOf d)) -> exists cs, Forall2 (fun k c => make_column M t hu keq d k = Ok (n, c)) ks cs /\
        Forall2 (fun k c => isUniform c = true /\ rep_ok M c /\ vector c n /\ forall v vs, At keq d k = Some v -> column_of M v vs -> elems (view c) = vs) ks cs).
      { induction ks as [|k ks IH]; intros Hin; [exists []; split; constructor|]. destruct IH as (cs & F1 & F2); [intros k' Hk'; apply Hin; right; exact Hk'|].
        destruct (proj1 (Hp k) (Hin k (or_introl eq_refl))) as (v & Ev). destruct (H k v Ev) as (vs & Hc & Hz & H1 & Hpl).
        destruct (make_ok d k v vs Ev Hc) as (c & Ec & U & R & V & El); [intros ->; cbn in Hz; lia|exact H1|exact Hpl|]. rewrite Hz in *.
        exists (c :: cs). split; constructor; try assumption. split; [exact U|]. split; [exact R|]. split; [exact V|].
        intros v' vs' Ev' Hc'. assert (v' = v) by congruence. subst v'. rewrite El. inversion Hc as [s A B|r A B C D]; subst; inversion Hc'; subst; reflexivity. }
      apply G. auto. }
    destruct Hcs as (cs & F1 & F2). unfold transposeObject. rewrite (loop_ok M t hu keq d n (keysOf d) cs None (mkDict [] []) F1 (or_introl eq_refl)).
    cbn [keysOf mapOf app]. eexists. split; [reflexivity|]. apply F2_znth in F2. destruct F2 as (Hl & F2).
    destruct (table_of M keq Hk (keysOf d) cs n (proj1 Hd) ltac:(lia) Hl) as (G & A).
    { intros i c Hc. pose proof (znth_some_range _ _ _ Hc). destruct (znth (keysOf d) i) as [k|] eqn:Ek; [|apply znth_none in Ek; lia]. destruct (F2 _ _ _ Ek Hc) as (B1 & B2 & B3 & _). split; [exact B1|]. split; assumption. }
    assert (Em : mk None n (keysOf d) = n) by (destruct (keysOf d); [congruence|reflexivity]). rewrite Em.
    split; [exact G|]. split; [reflexivity|]. split; [reflexivity|].
    intros k v vs i Ev Hc. unfold cell. cbn [tdict]. assert (Hin : In k (keysOf d)) by (apply Hd; exists v; exact Ev). apply In_znth in Hin. destruct Hin as (j & Hj).
    pose proof (znth_some_range _ _ _ Hj). destruct (znth cs j) as [c|] eqn:Ec; [|apply znth_none in Ec; lia]. rewrite (A _ _ _ Hj Ec). destruct (F2 _ _ _ Hj Ec) as (_ & _ & _ & B). rewrite (B v vs Ev Hc). reflexivity.
  Qed.
  Theorem C58_empty : flip (mkDict [] []) = Ok (mkTable (mkDict [] []) 0).
  Proof. reflexivity. Qed.

  (* numbers of different types in one column are raised to the type of the largest: any
     table that comes out has the keys of the dictionary and its values, up to that *)
  Theorem C58_numbers (d : dict K dval) T : tower_ok M t -> imports_bottom M t -> proper keq d ->
    (forall k v, At keq d k = Some v -> exists vs, column_of M v vs /\ vs <> [] /\ (forall x, In x vs -> plain M t hu x)) ->
    flip d = Ok T -> good M keq T /\ keysOf (tdict T) = keysOf d /\
      forall k v vs, At keq d k = Some v -> column_of M v vs -> zlen vs = Rows T /\
        exists r, At keq (tdict T) k = Some r /\ unified M t vs (elems (view r)).
  Proof.
    intros Ht Hi Hd H E. unfold transposeObject in E. pose proof E as E0. apply loop_inv in E. destruct E as (m & cs & F & _ & _).
    rewrite (loop_ok M t hu keq d m (keysOf d) cs None (mkDict [] []) F (or_introl eq_refl)) in E0. injection E0 as <-. cbn [keysOf mapOf app tdict Rows].
    assert (F2 : Forall2 (fun k c => isUniform c = true /\ rep_ok M c /\ vector c m /\ forall v vs, At keq d k = Some v -> column_of M v vs -> zlen vs = m /\ unified M t vs (elems (view c))) (keysOf d) cs).
    { destruct Hd as (_ & Hp). assert (Hin : forall k, In k (keysOf d) -> exists v, At keq d k = Some v) by (intros k Hi'; apply Hp; exact Hi').
      clear Hp. induction F as [|k c ks cs Hc F IH]; [constructor|]. constructor; [|apply IH; intros k' Hk'; apply Hin; right; exact Hk'].
      destruct (Hin k (or_introl eq_refl)) as (v & Ev). destruct (H k v Ev) as (vs & Hv & Hne & Hpl). unfold make_column in Hc. rewrite Ev in Hc.
      inversion Hv as [s E1 E2|r Hr Hvec E1 E2]; subst.
      - cbn [shape view dims] in Hc. destruct (Unify M t hu (RMixed (mkArr [1] [s])) true) as [(u, ok)| |] eqn:Eu; try discriminate. cbn [obind fst snd] in Hc. destruct ok; [|discriminate]. injection Hc as <- <-.
        apply unify_uptype_any in Eu; try assumption; [|discriminate|split; [intros _; apply (wf_vec [s])|exact Logic.I]]. destruct Eu as (D & U & I & R).
        split; [exact I|]. split; [exact R|]. cbn [view elems dims] in *. split.
        + split; [exact D|]. destruct U as [U|(x & _ & U)]; [rewrite U; reflexivity|symmetry; apply Forall2_zlen in U; exact U].
        + intros v' vs' Ev' Hv'. assert (v' = DVal (TScal s)) by congruence. subst v'. inversion Hv'; subst. split; [reflexivity|exact U].
      - destruct (vector_dims r _ Hvec) as (Hne' & Hs). rewrite Hs in Hc. destruct (Unify M t hu r true) as [(u, ok)| |] eqn:Eu; try discriminate. cbn [obind fst snd] in Hc. destruct ok; [|discriminate]. injection Hc as <- <-.
        apply unify_uptype_any in Eu; try assumption. destruct Eu as (D & U & I & R).
        split; [exact I|]. split; [exact R|]. split.
        + split; [unfold shape in Hs; congruence|]. destruct U as [U|(x & _ & U)]; [rewrite U; reflexivity|symmetry; apply Forall2_zlen in U; exact U].
        + intros v' vs' Ev' Hv'. assert (v' = DVal (TArr r)) by congruence. subst v'. inversion Hv'; subst. split; [reflexivity|exact U]. }
    apply F2_znth in F2. destruct F2 as (Hl & F2).
    assert (Hm : keysOf d <> [] -> 0 <= m /\ mk None m (keysOf d) = m).
    { intros Hne. destruct (keysOf d) as [|k ks] eqn:Ek; [congruence|]. split; [|reflexivity]. destruct cs as [|c cs]; [apply Forall2_length in F; discriminate|].
      destruct (F2 0 k c eq_refl eq_refl) as (_ & _ & (_ & Hz) & _). rewrite <- Hz. apply zlen_nonneg. }
    destruct (keysOf d) as [|k0 ks0] eqn:Ek.
    { apply Forall2_length in F. destruct cs; [|discriminate]. split; [|split; [reflexivity|]].
      - destruct (table_of M keq Hk [] [] 0) as (G & _); [constructor|lia|reflexivity|intros i c Hc; apply znth_In in Hc; contradiction|]. exact G.
      - intros k v vs Ev _. exfalso. assert (In k (keysOf d)) by (apply Hd; exists v; exact Ev). rewrite Ek in *. contradiction. }
    rewrite <- Ek in *. destruct Hm as (H0 & Em); [rewrite Ek; discriminate|]. rewrite Em.
    destruct (table_of M keq Hk (keysOf d) cs m (proj1 Hd) H0 Hl) as (G & A).
    { intros i c Hc. pose proof (znth_some_range _ _ _ Hc). destruct (znth (keysOf d) i) as [k|] eqn:Eki; [|apply znth_none in Eki; lia]. destruct (F2 _ _ _ Eki Hc) as (B1 & B2 & B3 & _). split; [exact B1|]. split; assumption. }
    split; [exact G|]. split; [reflexivity|]. intros k v vs Ev Hc. assert (Hin : In k (keysOf d)) by (apply Hd; exists v; exact Ev). apply In_znth in Hin. destruct Hin as (j & Hj).
    pose proof (znth_some_range _ _ _ Hj). destruct (znth cs j) as [c|] eqn:Ec; [|apply znth_none in Ec; lia]. destruct (F2 _ _ _ Hj Ec) as (_ & _ & _ & B). destruct (B v vs Ev Hc) as (B1 & B2).
    split; [exact B1|]. exists c. split; [apply (A _ _ _ Hj Ec)|exact B2].
  Qed.
  Lemma make_nopanic (d : dict K dval) k v : tower_ok M t -> imports_bottom M t -> At keq d k = Some v ->
    (forall r, v = DVal (TArr r) -> rep_ok M r) -> make_column M t hu keq d k <> Panic.
  Proof.
    intros Ht Hi E Hr. unfold make_column. rewrite E. destruct v as [[s|r]|]; [| |discriminate].
    - cbn [shape view dims]. destruct (unify_up M t hu (RMixed (mkArr [1] [s])) Ht Hi) as (c & ok & Ec & _); [split; [intros _; apply (wf_vec [s])|exact Logic.I]|discriminate|]. rewrite Ec. cbn [obind fst snd]. destruct ok; discriminate.
    - destruct (shape r) as [|n [|? ?]] eqn:Es; try discriminate.
      destruct (unify_up M t hu r Ht Hi) as (c & ok & Ec & _); [apply Hr; reflexivity|intros ->; discriminate Es|]. rewrite Ec. cbn [obind fst snd]. destruct ok; discriminate.
  Qed.

  (* everything else is refused: objects, arrays that are no vectors, vectors of different
     lengths, columns with strings and numbers *)
  Inductive unfit (d : dict K dval) : Prop :=
  | uf_object k : At keq d k = Some DObj -> unfit d
  | uf_rank k r : At keq d k = Some (DVal (TArr r)) -> zlen (dims (view r)) <> 1 -> unfit d
  | uf_lengths k k' v v' vs vs' : At keq d k = Some v -> At keq d k' = Some v' -> column_of M v vs -> column_of M v' vs' -> zlen vs <> zlen vs' -> unfit d
  | uf_mixed k r s n : At keq d k = Some (DVal (TArr r)) -> In (VOth strT s) (elems (view r)) -> In (VNum n) (elems (view r)) -> unfit d.
  Theorem C58_refused (d : dict K dval) : tower_ok M t -> imports_bottom M t -> proper keq d ->
    (forall k r, At keq d k = Some (DVal (TArr r)) -> rep_ok M r) -> unfit d -> flip d = Err.
  Proof.
    intros Ht Hi Hd Hr Hu. unfold transposeObject. apply loop_err.
    { intros k Hin. apply Hd in Hin. destruct Hin as (v & Ev). apply (make_nopanic d k v Ht Hi Ev). intros r ->. apply (Hr k). exact Ev. }
    intros T E. apply loop_inv in E. destruct E as (m & cs & F & _). apply F2_znth in F. destruct F as (Hl & F).
    assert (G : forall k v, At keq d k = Some v -> exists c, make_column M t hu keq d k = Ok (m, c)).
    { intros k v Ev. assert (Hin : In k (keysOf d)) by (apply Hd; exists v; exact Ev). apply In_znth in Hin. destruct Hin as (i & Ei).
      pose proof (znth_some_range _ _ _ Ei). destruct (znth cs i) as [c|] eqn:Ec; [|apply znth_none in Ec; lia]. exists c. apply (F _ _ _ Ei Ec). }
    assert (L : forall k v vs, At keq d k = Some v -> column_of M v vs -> zlen vs = m).
    { intros k v vs Ev Hc. destruct (G k v Ev) as (c & Ec). unfold make_column in Ec. rewrite Ev in Ec. inversion Hc as [s E1 E2|r Hr' Hvec E1 E2]; subst.
      - cbn [shape view dims] in Ec. destruct (Unify _ _ _ _ _) as [(u, ok)| |]; try discriminate. cbn [obind fst snd] in Ec. destruct ok; [injection Ec as <- _; reflexivity|discriminate].
      - destruct (vector_dims r _ Hvec) as (_ & Hs). rewrite Hs in Ec. destruct (Unify _ _ _ _ _) as [(u, ok)| |]; try discriminate. cbn [obind fst snd] in Ec. destruct ok; [injection Ec as <- _; reflexivity|discriminate]. }
    destruct Hu as [k Ek|k r Ek Hn|k k' v v' vs vs' Ek Ek' Hc Hc' Hne|k r s n Ek Hs Hnum].
    - destruct (G k _ Ek) as (c & Ec). unfold make_column in Ec. rewrite Ek in Ec. discriminate.
    - destruct (G k _ Ek) as (c & Ec). unfold make_column in Ec. rewrite Ek in Ec. unfold shape in Ec. destruct (dims (view r)) as [|x [|y l]]; try discriminate. apply Hn. reflexivity.
    - apply Hne. rewrite (L _ _ _ Ek Hc), (L _ _ _ Ek' Hc'). reflexivity.
    - destruct (G k _ Ek) as (c & Ec). unfold make_column in Ec. rewrite Ek in Ec. destruct (shape r) as [|x [|y l]] eqn:Es; try discriminate.
      destruct (unify_up M t hu r Ht Hi (Hr _ _ Ek)) as (u & ok & Eu & _ & Hok); [intros ->; contradiction|]. rewrite Eu in Ec. cbn [obind fst snd] in Ec. destruct ok; [|discriminate].
      destruct (isUniform r) eqn:Ur.
      { pose proof (rep_one_type M r (Hr _ _ Ek) Ur _ _ Hs Hnum). discriminate. }
      assert (Hno : ~ one_type M (elems (view r))) by (intros H1; specialize (H1 _ _ Hs Hnum); discriminate).
      destruct (Hok eq_refl) as [V|(w & _ & _ & F2)].
      + (* the data is unchanged, but it is not of one type *)
        clear - Eu Ur Hno Hs Hnum. unfold Unify in Eu. rewrite Ur in Eu.
        assert (Eu' : match elems (view r) with [] => Ok (r, true) | (v0 :: rest) as vs =>
          let '(same, max) := scan M t v0 rest in
          if same then Ok (u, true) else match max with None => Ok (r, false) | Some _ => Ok (u, true) end end = Ok (u, true)).
        { destruct (elems (view r)) as [|v0 rest]; [contradiction|]. destruct (scan M t v0 rest) as (same, max). destruct same; [reflexivity|]. destruct max as [(? & ?)|]; [reflexivity|]. cbn [negb andb] in Eu. destruct r; try discriminate Ur; try discriminate Eu; contradiction. }
        clear Eu. destruct (elems (view r)) as [|v0 rest]; [contradiction|]. destruct (scan_spec M t v0 rest) as (S1 & S2). destruct (scan M t v0 rest) as (same, max). cbn [fst snd] in *.
        destruct same; [apply Hno; apply one_type_head; symmetry; exact S1|]. destruct max as [(cc & mm)|]; [|discriminate]. destruct S2 as (_ & _ & S4). destruct (S4 _ Hs) as (c' & Ec' & _). discriminate.
      + apply In_znth in Hs. destruct Hs as (i & Hs). pose proof (znth_some_range _ _ _ Hs). apply F2_znth in F2. destruct F2 as (Hl2 & F2). destruct (znth (elems (view u)) i) as [y|] eqn:Ey; [|apply znth_none in Ey; lia].
        destruct (F2 _ _ _ Hs Ey) as (? & ? & ? & Ex & _). discriminate.
  Qed.

  (* ⍉T is the dictionary of the columns, and ⍉⍉T is T *)
  Theorem C58_back (T : table) : good M keq T ->
    proper keq (transposeTable T) /\ keysOf (transposeTable T) = keysOf (tdict T) /\
    (forall k r, At keq (transposeTable T) k = Some (DVal (TArr r)) <-> At keq (tdict T) k = Some r) /\
    (keysOf (tdict T) <> [] -> exists T', flip (transposeTable T) = Ok T' /\ good M keq T' /\ keysOf (tdict T') = keysOf (tdict T) /\ Rows T' = Rows T /\
      forall k, At keq (tdict T') k = At keq (tdict T) k).
  Proof.
    intros ((Hn & Hp) & H0 & Hg).
    assert (A : forall k, At keq (transposeTable T) k = match At keq (tdict T) k with Some r => Some (DVal (TArr r)) | None => None end).
    { intros k. unfold At, transposeTable. cbn [mapOf]. induction (mapOf (tdict T)) as [|(k', r) m IH]; [reflexivity|]. cbn [map mget fst snd]. destruct (keq k' k); [reflexivity|exact IH]. }
    split.
    { split; [exact Hn|]. intros k. unfold transposeTable at 1. cbn [keysOf]. rewrite Hp, A. split; intros (v & E).
      - exists (DVal (TArr v)). rewrite E. reflexivity.
      - destruct (At keq (tdict T) k) as [r|]; [|discriminate]. exists r. reflexivity. }
    split; [reflexivity|]. split.
    { intros k r. rewrite A. destruct (At keq (tdict T) k) as [r'|]; split; intros E; try discriminate; congruence. }
    intros Hne.
    assert (Hcs : exists cs, Forall2 (fun k c => make_column M t hu keq (transposeTable T) k = Ok (Rows T, c)) (keysOf (tdict T)) cs /\ Forall2 (fun k c => At keq (tdict T) k = Some c) (keysOf (tdict T)) cs).
    { assert (G : forall ks, (forall k, In k ks -> In k (keysOf (tdict T))) -> exists cs, Forall2 (fun k c => make_column M t hu keq (transposeTable T) k = Ok (Rows T, c)) ks cs /\ Forall2 (fun k c => At keq (tdict T) k = Some c) ks cs).
      { induction ks as [|k ks IH]; intros Hin; [exists []; split; constructor|]. destruct IH as (cs & F1 & F2); [intros k' Hk'; apply Hin; right; exact Hk'|].
        destruct (proj1 (Hp k) (Hin k (or_introl eq_refl))) as (r & Er). destruct (Hg k r Er) as (U & R & V). exists (r :: cs). split; constructor; try assumption.
        unfold make_column. rewrite A, Er. destruct (vector_dims r _ V) as (_ & Es). rewrite Es. assert (Eu : Unify M t hu r true = Ok (r, true)) by (destruct r; try discriminate U; reflexivity). rewrite Eu. reflexivity. }
      apply G. auto. }
    destruct Hcs as (cs & F1 & F2). unfold transposeObject. change (keysOf (transposeTable T)) with (keysOf (tdict T)).
    rewrite (loop_ok M t hu keq (transposeTable T) (Rows T) (keysOf (tdict T)) cs None (mkDict [] []) F1 (or_introl eq_refl)). cbn [keysOf mapOf app]. eexists. split; [reflexivity|].
    apply F2_znth in F2. destruct F2 as (Hl & F2). destruct (table_of M keq Hk (keysOf (tdict T)) cs (Rows T) Hn H0 Hl) as (G & B).
    { intros i c Hc. pose proof (znth_some_range _ _ _ Hc). destruct (znth (keysOf (tdict T)) i) as [k|] eqn:Ek; [|apply znth_none in Ek; lia]. apply (Hg k). apply (F2 _ _ _ Ek Hc). }
    assert (Em : mk None (Rows T) (keysOf (tdict T)) = Rows T) by (destruct (keysOf (tdict T)); [congruence|reflexivity]). rewrite Em.
    split; [exact G|]. split; [reflexivity|]. split; [reflexivity|]. intros k. cbn [tdict].
    destruct (At keq (tdict T) k) as [r|] eqn:Er.
    - assert (Hin : In k (keysOf (tdict T))) by (apply Hp; exists r; exact Er). apply In_znth in Hin. destruct Hin as (j & Hj).
      pose proof (znth_some_range _ _ _ Hj). destruct (znth cs j) as [c|] eqn:Ec; [|apply znth_none in Ec; lia]. rewrite (B _ _ _ Hj Ec). pose proof (F2 _ _ _ Hj Ec). congruence.
    - destruct G as ((_ & Gp) & _). match goal with |- ?x = None => destruct x as [c|] eqn:Ec; [|reflexivity] end. exfalso.
      assert (Hin : In k (keysOf (tdict T))) by (apply Gp; exists c; exact Ec). apply Hp in Hin. destruct Hin as (v & Ev). congruence.
  Qed.
  (* ⍉⍉D is D, for a dictionary of vectors *)
  Theorem C58_twice (d : dict K dval) n : proper keq d -> keysOf d <> [] -> 0 < n ->
    (forall k v, At keq d k = Some v -> exists r, v = DVal (TArr r) /\ rep_ok M r /\ vector r n /\ one_type M (elems (view r)) /\ (forall x, In x (elems (view r)) -> plain M t hu x)) ->
    exists T, flip d = Ok T /\ keysOf (transposeTable T) = keysOf d /\
      forall k r, At keq d k = Some (DVal (TArr r)) -> exists r', At keq (transposeTable T) k = Some (DVal (TArr r')) /\ view r' = view r.
  Proof.
    intros Hd Hne H0 H. destruct (C58_table d n Hd Hne H0) as (T & E & G & Ek & Er & Hc).
    { intros k v Ev. destruct (H k v Ev) as (r & -> & R & V & H1 & Hpl). exists (elems (view r)). assert (Hz : zlen (elems (view r)) = n) by apply V.
      split; [constructor; [exact R|]; rewrite Hz; exact V|]. split; [exact Hz|]. split; assumption. }
    exists T. split; [exact E|]. destruct (C58_back T G) as (_ & B2 & B3 & _). split; [congruence|]. intros k r Ev.
    destruct G as ((_ & Gp) & _ & Gg). assert (Hin : In k (keysOf (tdict T))) by (rewrite Ek; apply Hd; exists (DVal (TArr r)); exact Ev).
    apply Gp in Hin. destruct Hin as (r' & Er'). exists r'. split; [apply B3; exact Er'|].
    destruct (H k _ Ev) as (r0 & E0 & R & V & _). injection E0 as <-. destruct (Gg k r' Er') as (_ & _ & V').
    assert (Hvs : forall i, znth (elems (view r')) i = znth (elems (view r)) i).
    { intros i. specialize (Hc k _ (elems (view r)) i Ev). unfold cell in Hc. rewrite Er' in Hc. apply Hc. constructor; [exact R|]. destruct V as (V1 & V2). rewrite V2. split; assumption. }
    destruct V as (V1 & V2), V' as (V1' & V2'). assert (He : elems (view r') = elems (view r)) by (apply znth_ext; [congruence|intros i _; apply Hvs]).
    destruct (view r'), (view r). cbn in *. congruence.
  Qed.
End C58.
Print Assumptions C58_table.
Print Assumptions C58_numbers.
Print Assumptions C58_refused.
Print Assumptions C58_twice.

Section C102.
  Context {P : Type} (M : methods P) {K : Type} (keq : K -> K -> bool) (Hk : key_equality keq) (skey : string -> K) (origin : Z).
  Local Notation sv := (sval P).
  Local Notation table := (@table P K).
  Local Notation index := (tableIndex M keq skey origin).
  Local Notation means := (index_means skey origin).

  Lemma many_conv (rs : @rowspec P K) cs : many rs cs <-> conv_spec rs cs = false.
  Proof. unfold many, conv_spec. destruct rs, cs; cbn; split; intros H; try reflexivity; try discriminate; try (destruct H; contradiction); auto. Qed.

  (* an index that is an array or a function gives a table: row i of it is row l[i] of T *)
  Theorem C102_table (T : table) rs cs l ks : good M keq T -> means T rs cs l ks -> many rs cs -> NoDup ks -> (forall k, In k ks -> In k (keysOf (tdict T))) ->
    exists T', index T rs cs = Ok (TTable T') /\ good M keq T' /\ keysOf (tdict T') = ks /\ Rows T' = zlen l /\
      forall i j k, znth l i = Some j -> In k ks -> cell keq T' i k = cell keq T j k.
  Proof.
    intros G Hm Hmany Hn Hin. destruct (selection_ok M keq Hk skey origin T rs cs l ks G Hm Hin) as (Hl & ci & Es & F).
    destruct (subtable_ok M keq Hk T l ci ks G Hl F Hn) as (d & Ed & Gd & Ek & Hc).
    unfold tableIndex. rewrite Es. cbn [obind fst snd]. rewrite (proj1 (many_conv rs cs) Hmany). unfold index_conv. rewrite Ed. cbn [obind].
    exists (mkTable d (zlen l)). split; [reflexivity|]. split; [exact Gd|]. split; [exact Ek|]. split; [reflexivity|exact Hc].
  Qed.
  (* one row and one column, named by scalars: the value *)
  Theorem C102_value (T : table) rs cs j k : good M keq T -> means T rs cs [j] [k] -> ~ many rs cs -> In k (keysOf (tdict T)) ->
    exists v, index T rs cs = Ok (TVal (TScal v)) /\ cell keq T j k = Some v.
  Proof.
    intros G Hm Hmany Hin. destruct (selection_ok M keq Hk skey origin T rs cs [j] [k] G Hm) as (Hl & ci & Es & F); [intros k' [<-|[]]; exact Hin|].
    inversion F as [|c k' ci' ks' Hc F' E1 E2]; subst. inversion F'; subst. inversion Hl as [|? ? Hj _]; subst.
    unfold tableIndex. rewrite Es. cbn [obind fst snd]. destruct (conv_spec rs cs) eqn:Ec; [|exfalso; apply Hmany; apply many_conv; exact Ec].
    unfold index_conv. rewrite (proj2 (zat_ok _ _ _) Hc). cbn [obind]. destruct (column_ok M keq T k G Hin) as (r & E & Ea & _ & _ & (_ & Hz)). rewrite E. cbn [obind].
    unfold cell. rewrite Ea. destruct (znth (elems (view r)) j) as [v|] eqn:Ev; [|apply znth_none in Ev; lia]. unfold vals. rewrite (proj2 (zat_ok _ _ _) Ev). exists v. split; reflexivity.
  Qed.
  (* one column and any number of rows but one, without an array: the column *)
  Theorem C102_column (T : table) rs cs l k : good M keq T -> means T rs cs l [k] -> ~ many rs cs -> zlen l <> 1 -> In k (keysOf (tdict T)) ->
    exists r, index T rs cs = Ok (TVal (TArr r)) /\ vector r (Rows T) /\ forall i, 0 <= i < Rows T -> znth (elems (view r)) i = cell keq T i k.
  Proof.
    intros G Hm Hmany H1 Hin. destruct (selection_ok M keq Hk skey origin T rs cs l [k] G Hm) as (Hl & ci & Es & F); [intros k' [<-|[]]; exact Hin|].
    inversion F as [|c k' ci' ks' Hc F' E1 E2]; subst. inversion F'; subst.
    unfold tableIndex. rewrite Es. cbn [obind fst snd]. destruct (conv_spec rs cs) eqn:Ec; [|exfalso; apply Hmany; apply many_conv; exact Ec].
    destruct (column_ok M keq T k G Hin) as (r & E & Ea & _ & _ & V). exists r.
    split; [|split; [exact V|intros i _; unfold cell; rewrite Ea; reflexivity]].
    unfold index_conv. rewrite (proj2 (zat_ok _ _ _) Hc). cbn [obind]. rewrite E. cbn [obind]. destruct l as [|i [|i' l]]; try reflexivity. exfalso. apply H1. reflexivity.
  Qed.
  (* one row and any number of columns but one, without an array: a dictionary of vectors
     with one element *)
  Theorem C102_row (T : table) rs cs j ks : good M keq T -> means T rs cs [j] ks -> ~ many rs cs -> zlen ks <> 1 -> NoDup ks -> (forall k, In k ks -> In k (keysOf (tdict T))) ->
    exists d, index T rs cs = Ok (TDict d) /\ proper keq d /\ keysOf d = ks /\
      forall k r, At keq d k = Some r -> vector r 1 /\ znth (elems (view r)) 0 = cell keq T j k.
  Proof.
    intros G Hm Hmany H1 Hn Hin. destruct (selection_ok M keq Hk skey origin T rs cs [j] ks G Hm Hin) as (Hl & ci & Es & F).
    destruct (subtable_ok M keq Hk T [j] ci ks G Hl F Hn) as (d & Ed & Gd & Ek & Hc). exists d.
    split; [|split; [apply Gd|split; [exact Ek|]]].
    - unfold tableIndex. rewrite Es. cbn [obind fst snd]. destruct (conv_spec rs cs) eqn:Ec; [|exfalso; apply Hmany; apply many_conv; exact Ec].
      unfold index_conv. rewrite Ed. cbn [obind]. pose proof (Forall2_zlen _ _ _ F). destruct ci as [|c [|c' ci]]; try reflexivity. exfalso. apply H1. rewrite <- H. reflexivity.
    - intros k r Er. destruct Gd as (Gp & _ & Gg). split; [apply (Gg k r Er)|]. assert (Hi : In k ks) by (rewrite <- Ek; apply Gp; exists r; exact Er).
      specialize (Hc 0 j k eq_refl Hi). unfold cell in Hc at 1. cbn [tdict] in Hc. rewrite Er in Hc. exact Hc.
  Qed.
  (* a row that does not exist, a column that does not exist *)
  Theorem C102_no_row (T : table) rs cs i : good M keq T -> (rs = RowOne i \/ exists l, rs = RowInts l /\ In i l) ->
    (i - origin < 0 \/ Rows T <= i - origin) -> (forall k, cs = ColOne k \/ (exists ks, cs = ColKeys ks /\ In k ks) -> In k (keysOf (tdict T))) -> index T rs cs = Err.
  Proof.
    intros ((Hn & _) & H0 & _) Hrs Hi Hcs. unfold tableIndex.
    enough (E : tableSelection keq skey origin T rs cs = Err) by (rewrite E; reflexivity). unfold tableSelection.
    assert (Hcols : exists ci, select_cols keq skey (keysOf (tdict T)) rs cs = Ok (rs, ci)).
    { unfold select_cols. destruct cs as [| |k|ks].
      - replace (as_strings rs) with (@None (list string)); [eexists; reflexivity|]. destruct Hrs as [->|(l & -> & Hin)]; [reflexivity|]. destruct l; [contradiction|reflexivity].
      - eexists. reflexivity.
      - destruct (find_cols_ok keq Hk (keysOf (tdict T)) [k] Hn) as (ci & E & _); [intros k' [<-|[]]; apply Hcs; left; reflexivity|]. rewrite E. eexists. reflexivity.
      - destruct (find_cols_ok keq Hk (keysOf (tdict T)) ks Hn) as (ci & E & _); [intros k' Hk'; apply Hcs; right; exists ks; split; [reflexivity|exact Hk']|]. rewrite E. eexists. reflexivity. }
    destruct Hcols as (ci & Ec). rewrite Ec. cbn [obind fst snd].
    assert (Hsel : exists l, select_rows origin T rs = Ok l /\ In i l) by (destruct Hrs as [->|(l & -> & Hin)]; [exists [i]; split; [reflexivity|left; reflexivity]|exists l; split; [reflexivity|exact Hin]]).
    destruct Hsel as (l & El & Hin). rewrite El. cbn [obind].
    match goal with |- context [mapM ?f l] => enough (E : mapM f l = Err) by (rewrite E; reflexivity) end.
    clear El. induction l as [|x l IH]; [contradiction|]. cbn [mapM]. destruct ((x - origin <? 0) || (Rows T <=? x - origin)) eqn:Ex; [reflexivity|]. cbn [obind].
    destruct Hin as [->|Hin]; [exfalso; destruct (Z.ltb_spec (i - origin) 0); [discriminate|]; destruct (Z.leb_spec (Rows T) (i - origin)); [discriminate|lia]|]. rewrite (IH Hin). reflexivity.
  Qed.
  Theorem C102_no_column (T : table) rs cs k : proper keq (tdict T) -> ~ In k (keysOf (tdict T)) ->
    (cs = ColOne k \/ (exists ks, cs = ColKeys ks /\ In k ks) \/ (cs = ColNone /\ exists s, skey s = k /\ (rs = RowName s \/ exists ss, rs = RowNames ss /\ In s ss))) -> index T rs cs = Err.
  Proof.
    intros (Hn & _) Hin H. unfold tableIndex, tableSelection, select_cols.
    destruct H as [->|[(ks & -> & Hi)|(-> & s & Es & [->|(ss & -> & Hi)])]].
    - rewrite (find_cols_err keq Hk _ [k] k Hn (or_introl eq_refl) Hin). reflexivity.
    - rewrite (find_cols_err keq Hk _ ks k Hn Hi Hin). reflexivity.
    - cbn [as_strings map]. rewrite Es, (find_cols_err keq Hk _ [k] k Hn (or_introl eq_refl) Hin). reflexivity.
    - cbn [as_strings]. rewrite (find_cols_err keq Hk _ (map skey ss) k Hn); [reflexivity|rewrite <- Es; apply in_map; exact Hi|exact Hin].
  Qed.
End C102.
Print Assumptions C102_table.
Print Assumptions C102_row.

Section C103.
  Context {P : Type} (M : methods P) (t : tower P) (hu : ntype -> bool) {K : Type} (keq : K -> K -> bool) (Hk : key_equality keq).
  Local Notation sv := (sval P).
  Local Notation table := (@table P K).
  (* T[]: the matrix of the cells, with numbers of different types raised to one type *)
  Theorem C103_array (T : table) : tower_ok M t -> imports_bottom M t -> good M keq T ->
    exists r a, table2array M t hu keq T = Ok r /\ wf a /\ dims a = [Rows T; zlen (keysOf (tdict T))] /\
      (forall i j k, 0 <= i < Rows T -> znth (keysOf (tdict T)) j = Some k -> elem a [i; j] = cell keq T i k) /\
      dims (view r) = dims a /\ unified M t (elems a) (elems (view r)).
  Proof.
    intros Ht Hi G. set (keys := keysOf (tdict T)). set (n := zlen keys). assert (Hn0 : 0 <= n) by apply zlen_nonneg. assert (H0 : 0 <= Rows T) by apply G.
    assert (Hm : exists vs, mapM (fun j => let* k := zat keys (j mod n) in let* c := column keq (tdict T) k in zat (vals c) (j / n)) (zseq (Rows T * n)) = Ok vs).
    { assert (A : forall j, In j (zseq (Rows T * n)) -> exists v, (let* k := zat keys (j mod n) in let* c := column keq (tdict T) k in zat (vals c) (j / n)) = Ok v).
      { intros j Hj. apply In_zseq in Hj. assert (0 < n) by nia. pose proof (Z.mod_pos_bound j n H). destruct (znth keys (j mod n)) as [k|] eqn:Ek; [|apply znth_none in Ek; fold n in Ek; lia].
        rewrite (proj2 (zat_ok _ _ _) Ek). cbn [obind]. destruct (column_ok M keq T k G) as (r & E & _ & _ & _ & (_ & Hz)); [eapply znth_In; exact Ek|]. rewrite E. cbn [obind].
        assert (0 <= j / n < Rows T) by (split; [apply Z.div_pos; lia|apply Z.div_lt_upper_bound; lia]).
        destruct (znth (vals r) (j / n)) as [v|] eqn:Ev; [|apply znth_none in Ev; unfold vals in Ev; lia]. exists v. apply zat_ok. exact Ev. }
      revert A. generalize (zseq (Rows T * n)). intros l A. induction l as [|j l IH]; [exists []; reflexivity|]. destruct (A j (or_introl eq_refl)) as (v & Ev). destruct IH as (vs & E); [intros j' Hj'; apply A; right; exact Hj'|].
      exists (v :: vs). cbn [mapM]. rewrite Ev. cbn [obind]. rewrite E. reflexivity. }
    destruct Hm as (vs & Em). assert (Hz : zlen vs = Rows T * n) by (pose proof (mapM_length _ _ _ Em) as E; unfold zlen; rewrite E; fold (zlen (zseq (Rows T * n))); rewrite zlen_zseq; nia).
    assert (Hwf : wf (mkArr [Rows T; n] vs)) by (split; [discriminate|]; split; [constructor; [exact H0|constructor; [exact Hn0|constructor]]|]; cbn [dims elems size]; lia).
    unfold table2array. fold keys n. rewrite Em. cbn [obind].
    assert (HR : rep_ok M (RMixed (mkArr [Rows T; n] vs))) by (split; [intros _; exact Hwf|exact Logic.I]).
    destruct (unify_up M t hu _ Ht Hi HR ltac:(discriminate)) as (r & ok & Eu & H1 & H2).
    rewrite Eu. cbn [obind fst]. exists r, (mkArr [Rows T; n] vs). split; [reflexivity|]. split; [exact Hwf|]. split; [reflexivity|]. split.
    - intros i j k Hi' Hj. pose proof (znth_some_range _ _ _ Hj) as Hr. fold n in Hr. unfold elem. cbn [elems dims pos size].
      replace (i * (n * 1) + (j * 1 + 0)) with (i * n + j) by lia.
      assert (Hp : 0 <= i * n + j < Rows T * n) by nia. pose proof (znth_zseq (Rows T * n) (i * n + j) Hp) as Hs. apply mapM_Forall2 in Em.
      destruct (znth vs (i * n + j)) as [v|] eqn:Ev; [|apply znth_none in Ev; lia]. pose proof (Forall2_znth _ _ _ Em _ _ _ Hs Ev) as E. cbv beta in E.
      rewrite Z.add_comm, Z.mod_add, Z.div_add, Z.mod_small, Z.div_small, Z.add_0_l in E by lia. rewrite (proj2 (zat_ok _ _ _) Hj) in E. cbn [obind] in E.
      destruct (column_ok M keq T k G) as (c & Ec & Ea & _); [eapply znth_In; exact Hj|]. rewrite Ec in E. cbn [obind] in E. apply zat_ok in E. unfold cell. rewrite Ea. symmetry. exact E.
    - cbn [view] in *. destruct ok.
      + destruct (H2 eq_refl) as [E|(m & A & B & C)]; [rewrite E; split; [reflexivity|left; reflexivity]|]. split; [exact B|]. right. exists m. split; assumption.
      + rewrite (H1 eq_refl). split; [reflexivity|left; reflexivity].
  Qed.
End C103.
Print Assumptions C103_array.

(* -------- examples -------- *)
Definition tM := bigM (fun q => q).
Definition ni (z : Z) : sval bignum := VNum (NI z).
Definition ns (s : string) : sval bignum := VOth strT s.
Definition seqb := String.eqb.
Lemma seqb_eq : key_equality seqb. Proof. intros a b. apply String.eqb_eq. Qed.
Definition exT : @table bignum string :=
  mkTable (mkDict ["a"; "b"]%string [("a", RInts (vec [1; 2; 3])); ("b", RStrings (vec ["x"; "y"; "z"]%string))]%string) 3.
Lemma exT_good : good tM seqb exT.
Proof.
  split; [|split].
  - split; [repeat constructor; cbn; intuition discriminate|]. intros k. split.
    + intros [<-|[<-|[]]]; eexists; vm_compute; reflexivity.
    + intros (v & E). unfold At, exT in E. cbn [tdict mapOf mget fst snd] in E. unfold seqb in E. destruct (String.eqb "a" k) eqn:E1; [apply String.eqb_eq in E1; subst k; cbn; tauto|]. destruct (String.eqb "b" k) eqn:E2; [apply String.eqb_eq in E2; subst k; cbn; tauto|]. discriminate E.
  - cbn. lia.
  - intros k r E. unfold At, exT, seqb in E. cbn [tdict mapOf mget fst snd] in E. destruct (String.eqb "a" k); [injection E as <-|destruct (String.eqb "b" k); [injection E as <-|discriminate]];
      (split; [reflexivity|]; split; [split; [intros _; cbn; split; [discriminate|split; [repeat (apply Forall_cons; [cbn; lia|]); apply Forall_nil|reflexivity]]|exact Logic.I]|split; reflexivity]).
Qed.
Example C58_example :
  let D := mkDict ["a"; "b"]%string [("a", DVal (TArr (RMixed (vec (map ni [1; 2; 3]))))); ("b", DVal (TArr (RStrings (vec ["x"; "y"; "z"]))))]%string in
  transposeObject tM bigT (fun _ => true) seqb D = Ok exT /\
  transposeTable exT = mkDict ["a"; "b"]%string [("a", DVal (TArr (RInts (vec [1; 2; 3])))); ("b", DVal (TArr (RStrings (vec ["x"; "y"; "z"]))))]%string /\
  (forall k v, At seqb D k = Some v -> exists vs, column_of tM v vs /\ zlen vs = 3 /\ one_type tM vs /\ forall x, In x vs -> plain tM bigT (fun _ => true) x) /\
  transposeObject tM bigT (fun _ => true) seqb (mkDict ["a"; "b"]%string [("a", DVal (TArr (RInts (vec [1; 2])))); ("b", DVal (TArr (RInts (vec [1]))))]%string) = Err.
Proof.
  cbv zeta. split; [vm_compute; reflexivity|]. split; [vm_compute; reflexivity|]. split; [|vm_compute; reflexivity].
  intros k v E. unfold At in E. cbn [mapOf mget] in E. destruct (seqb "a" k); [injection E as <-|destruct (seqb "b" k); [injection E as <-|discriminate E]].
  - exists (map ni [1; 2; 3]). split; [apply co_vector; [split; [intros _; apply (wf_vec (map ni [1; 2; 3]))|exact Logic.I]|split; reflexivity]|].
    split; [reflexivity|]. split; [intros x y Hx Hy; apply in_map_iff in Hx, Hy; destruct Hx as (? & <- & _), Hy as (? & <- & _); reflexivity|].
    intros x Hx. apply in_map_iff in Hx. destruct Hx as (? & <- & _). split; [discriminate|reflexivity].
  - exists (map ns ["x"; "y"; "z"]%string). split; [apply (co_vector tM (RStrings (vec ["x"; "y"; "z"]%string))); [split; [intros _; apply (wf_vec (map ns ["x"; "y"; "z"]%string))|exact Logic.I]|split; reflexivity]|].
    split; [reflexivity|]. split; [intros x y Hx Hy; apply in_map_iff in Hx, Hy; destruct Hx as (? & <- & _), Hy as (? & <- & _); reflexivity|].
    intros x Hx. apply in_map_iff in Hx. destruct Hx as (? & <- & _). reflexivity.
Qed.
Example C102_example :
  let idx := tableIndex tM seqb (fun s => s) 1 exT in
  (good tM seqb exT /\ index_means (fun s => s) 1 exT (RowInts [3; 1]) (ColOne "b"%string) [2; 0] ["b"%string]) /\
  idx (RowInts [3; 1]) (ColOne "b"%string) = Ok (TTable (mkTable (mkDict ["b"]%string [("b", RStrings (vec ["z"; "x"]))]%string) 2)) /\
  idx (RowName "b"%string) ColNone = Ok (TVal (TArr (RStrings (vec ["x"; "y"; "z"]%string)))) /\
  idx (RowOne 2) (ColOne "a"%string) = Ok (TVal (TScal (ni 2))) /\
  idx (RowOne 2) ColNone = Ok (TDict (mkDict ["a"; "b"]%string [("a", RInts (vec [2])); ("b", RStrings (vec ["y"]))]%string)) /\
  idx (RowOne 4) ColNone = Err /\ idx (RowName "c"%string) ColNone = Err.
Proof.
  cbv zeta. split; [split; [exact exT_good|]|].
  - apply im_both_one. apply (rm_ints 1 exT [2; 0]). repeat constructor; cbn; lia.
  - split; [vm_compute; reflexivity|]. split; [vm_compute; reflexivity|]. split; [vm_compute; reflexivity|]. split; [vm_compute; reflexivity|]. split; vm_compute; reflexivity.
Qed.
Example C103_example :
  table2array tM bigT (fun _ => true) seqb exT = Ok (RMixed (mkArr [3; 2] [ni 1; ns "x"; ni 2; ns "y"; ni 3; ns "z"])) /\
  table2array tM bigT (fun _ => true) seqb (mkTable (mkDict ["a"; "b"]%string [("a", RInts (vec [1; 2])); ("b", RInts (vec [3; 4]))]%string) 2) = Ok (RInts (mkArr [2; 2] [1; 3; 2; 4])).
Proof. split; vm_compute; reflexivity. Qed.
(* A column of numbers that have no compact arrays (times; every number of apl/big) is accepted,
   but the table is not proper: selecting a row of it panics. *)
Theorem C58_times_refuted {P : Type} (M : methods P) (t : tower P) (hu : ntype -> bool) (n : num P) (c : Z) :
  sclass M t (VNum n) = Some c -> hu (typeOf M n) = false ->
  exists T, transposeObject M t hu seqb (mkDict ["a"]%string [("a", DVal (TArr (RMixed (vec [VNum n; VNum n]))))]%string) = Ok T
    /\ ~ good M seqb T /\ tableIndex M seqb (fun s => s) 1 T (RowInts [1]) ColNone = Panic.
Proof.
  intros Hc Hn. exists (mkTable (mkDict ["a"%string] [("a"%string, RMixed (vec [VNum n; VNum n]))]) 2).
  assert (E : Unify M t hu (RMixed (vec [VNum n; VNum n])) true = Ok (RMixed (vec [VNum n; VNum n]), true)).
  { unfold Unify. cbn [isUniform view elems vec]. destruct (scan_spec M t (VNum n) [VNum n]) as (S1 & S2).
    destruct (scan M t (VNum n) [VNum n]) as (same, max). cbn [fst snd] in S1, S2. rewrite S1. cbn [forallb].
    rewrite (proj2 (styp_eqb_eq (stypeOf M (VNum n)) _) eq_refl). cbn [andb negb].
    destruct max as [(c', m)|].
    - unfold uniform_reshape. rewrite Hn. reflexivity.
    - destruct S2 as (v & Hv & Ev). destruct Hv as [<-|[<-|[]]]; congruence. }
  split; [|split].
  - unfold transposeObject. cbn [keysOf transpose_loop]. unfold make_column, At. cbn [mapOf mget].
    change (seqb "a" "a") with true. cbv iota. cbn [shape view dims vec]. change (zlen [VNum n; VNum n]) with 2.
    change (mkArr [2] [VNum n; VNum n]) with (vec [VNum n; VNum n]). rewrite E. reflexivity.
  - intros (_ & _ & G). destruct (G "a"%string (RMixed (vec [VNum n; VNum n])) eq_refl) as (U & _). discriminate U.
  - vm_compute. reflexivity.
Qed.
Print Assumptions C58_times_refuted.
