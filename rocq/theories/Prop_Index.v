(* Prop_Index.v -- C17, C18, C19, C76, C77, C78: bracket indexing, indexed and
   selective assignment.  Vocabulary: S_Array.v, S_Index.v. *)
From Verif Require Import Base M_Array S_Array S_Structural P_Array M_Structural P_Reverse P_Transpose P_Take P_Structural Prop_Structural Eff P_Reduce P_Search M_Index S_Index P_Index P_Assign.
Open Scope Z_scope.

(* ------------------------------------------------------------------ C17 *)
(* one index list per axis, all within the axis: the element at each position of
   the cross product is the element of A at the addressed cell *)
Theorem C17_selects {A} o spec (a : arr A) sel : wf a -> selects o spec (dims a) sel ->
  exists r, index o spec a = Ok r /\ zlen (elemsOf r) = size (map zlen sel) /\
    forall js, inb (map zlen sel) js -> exists idx, addresses sel js idx /\ inb (dims a) idx /\
      znth (elemsOf r) (pos (map zlen sel) js) = elem a idx /\ elem a idx <> None.
Proof.
  intros Hw Hs. destruct (index_ok o spec a sel Hw Hs) as (r & E & L & _ & _ & _ & P). exists r. split; [exact E|]. split; [exact L|].
  intros js Hj. destruct (addr_total o spec (dims a) sel js Hs Hj) as (idx & Ha & Hi). exists idx. split; [exact Ha|]. split; [exact Hi|].
  split; [apply (P js idx Hj Ha)|]. unfold elem. destruct (znth_in_range (elems a) (pos (dims a) idx)) as [x ->]; [|discriminate].
  destruct Hw as (_ & _ & ->). apply pos_range, Hi.
Qed.
(* anything else is an error, never a panic or a read outside *)
Theorem C17_error {A} o spec (a : arr A) : wf a -> spec <> [] -> (forall sel, ~ selects o spec (dims a) sel) -> index o spec a = Err.
Proof. apply index_err. Qed.
Lemma selects_all_axes o spec ds sel : selects o spec ds sel -> length spec = length ds /\
  (forall k s d, nth_error spec k = Some s -> nth_error ds k = Some d -> exists l, nth_error sel k = Some l /\ axis_selects o s d l).
Proof.
  induction 1 as [|s d l spec ds sel Ha Hs [IH1 IH2]]; [split; [reflexivity|intros [|k] ? ? H; discriminate]|].
  split; [cbn; congruence|]. intros [|k] s' d' H1 H2; cbn in *; [injection H1 as <-; injection H2 as <-; eauto|eauto].
Qed.
(* in particular a wrong number of axes, or one index out of range *)
Theorem C17_wrong_rank {A} o spec (a : arr A) : wf a -> spec <> [] -> length spec <> length (dims a) -> index o spec a = Err.
Proof. intros Hw Hn Hl. apply index_err; [exact Hw|exact Hn|]. intros sel Hs. apply selects_all_axes in Hs as [? _]. congruence. Qed.
Theorem C17_out_of_range {A} o spec (a : arr A) k l d i : wf a -> nth_error spec k = Some (AxInts l) -> nth_error (dims a) k = Some d ->
  In i l -> ~ (o <= i < o + d) -> index o spec a = Err.
Proof.
  intros Hw Hk Hd Hi Hr. apply index_err; [exact Hw|intros ->; destruct k; discriminate|]. intros sel Hs.
  apply selects_all_axes in Hs as [_ H]. destruct (H _ _ _ Hk Hd) as (c & _ & E & F). cbn in E. rewrite <- E in Hi. apply in_map_iff in Hi as (c0 & <- & Hc).
  rewrite Forall_forall in F. apply F in Hc. lia.
Qed.
(* empty brackets select the whole array *)
Theorem C17_all {A} o (a : arr A) : index o [] a = Ok (Arr a).
Proof. reflexivity. Qed.
Print Assumptions C17_selects.
Print Assumptions C17_out_of_range.

(* ------------------------------------------------------------------ C18 *)
Theorem C18_shape {A} o spec (a : arr A) sel : wf a -> selects o spec (dims a) sel ->
  exists r, index o spec a = Ok r /\ shapeOf r = filter (fun d => negb (d =? 1)) (map zlen sel) /\ r <> Emp.
Proof. intros Hw Hs. destruct (index_ok o spec a sel Hw Hs) as (r & E & _ & S & _ & N & _). exists r. split; [exact E|]. split; [exact S|exact N]. Qed.
Theorem C18_scalar {A} o spec (a : arr A) sel : wf a -> selects o spec (dims a) sel ->
  ((forall l, In l sel -> zlen l = 1) <-> exists x, index o spec a = Ok (Scal x)).
Proof.
  intros Hw Hs. destruct (index_ok o spec a sel Hw Hs) as (r & E & _ & _ & S & _ & _).
  assert (Hf : filter notone (map zlen sel) = [] <-> forall l, In l sel -> zlen l = 1).
  { clear. induction sel as [|l sel IH]; [split; [intros _ ? []|reflexivity]|]. cbn [map filter]. unfold notone at 1.
    destruct (zlen l =? 1) eqn:El; cbn [negb]; [apply Z.eqb_eq in El|apply Z.eqb_neq in El].
    - rewrite IH. split; [intros H m [<-|Hm]; auto|intros H m Hm; apply H; right; exact Hm].
    - split; [discriminate|]. intros H. exfalso. apply El, H. left. reflexivity. }
  rewrite <- Hf, S, E. split; intros [x Hx]; exists x; congruence.
Qed.
Print Assumptions C18_shape.
Print Assumptions C18_scalar.

(* ------------------------------------------------------------------ C19 *)
Lemma addresses_inb sel js idx : addresses sel js idx -> inb (map zlen sel) js.
Proof. induction 1 as [|l j i sel js idx H _ IH]; constructor; [apply znth_some_range in H; lia|exact IH]. Qed.
Lemma elem_upd_wf {A} (a b : arr A) : wf a -> same_box b a -> wf b.
Proof. intros (H1 & H2 & H3) (E1 & E2). unfold wf. rewrite E1, E2. auto. Qed.

(* the value that is stored for v: v itself, or v as the array's own type holds it *)
Definition stored {A} (k : akind A) (v y : A) : Prop := y = v \/ conv k v = Some y.

Section C19.
  Context {S A : Type} (k : akind A).
  Definition asgn (f : option (A -> A -> eff S A)) o spec (R : val A) (a : arr A) := assignScalar k f (indexSelection o spec) R a.

  (* what indexSelection gives, brackets not empty *)
  Lemma isel_ok o spec (a : arr A) sel : wf a -> selects o spec (dims a) sel ->
    exists I, indexSelection o spec a = Ok (mkArr (filter notone (map zlen sel)) I) /\ zlen I = size (map zlen sel) /\
      (forall js idx, addresses sel js idx -> inb (dims a) idx /\ znth I (pos (map zlen sel) js) = Some (pos (dims a) idx)) /\
      (forall j p, znth I j = Some p -> exists js idx, addresses sel js idx /\ inb (dims a) idx /\ j = pos (map zlen sel) js /\ p = pos (dims a) idx).
  Proof.
    intros (W1 & W2 & W3) Hs. destruct (indexArray_ok o spec (dims a) sel W1 W2 Hs) as (I & E & L & P).
    assert (Es : indexSelection o spec a = indexArray o spec (dims a)).
    { unfold indexSelection. destruct spec; [|reflexivity]. inversion Hs as [Hx Hd|]. congruence. }
    exists I. rewrite Es, E. split; [reflexivity|]. split; [exact L|]. split.
    - intros js idx Ha. apply P; [apply addresses_inb in Ha; exact Ha|exact Ha].
    - intros j p Hj. pose proof (znth_some_range _ _ _ Hj) as Hr. rewrite L in Hr.
      destruct (ic_indexes_spec (map zlen sel) j (lens_nn sel) Hr) as (js & _ & Hin & Hp).
      destruct (addr_total o spec (dims a) sel js Hs Hin) as (idx & Ha & Hi). exists js, idx. split; [exact Ha|]. split; [exact Hi|]. split; [congruence|].
      destruct (P js idx Hin Ha) as [_ H]. rewrite Hp in H. congruence.
  Qed.

  Lemma writes_last (ws : list (Z * A)) n p v : znth ws n = Some (p, v) -> (forall m w, n < m -> znth ws m = Some w -> fst w <> p) ->
    exists l, rev (writes_to p ws) = v :: l.
  Proof.
    revert n. induction ws as [|[q u] ws IH]; intros n Hn Hl.
    - apply znth_In in Hn. contradiction.
    - unfold writes_to. cbn [filter fst]. destruct (Z.eq_dec n 0) as [->|Hn0].
      + injection Hn as <- <-. rewrite Z.eqb_refl. cbn [map snd].
        assert (E : filter (fun w => fst w =? q) ws = []).
        { assert (H : forall w, In w ws -> fst w <> q).
          { intros w Hw. apply In_znth in Hw as [m Hm]. pose proof (znth_some_range _ _ _ Hm). apply (Hl (m + 1) w); [lia|].
            rewrite znth_cons_pos by lia. replace (m + 1 - 1) with m by lia. exact Hm. }
          clear -H. induction ws as [|w ws IH]; [reflexivity|]. cbn. destruct (fst w =? q) eqn:E; [apply Z.eqb_eq in E; exfalso; apply (H w); [left; reflexivity|exact E]|].
          apply IH. intros; apply H; right; assumption. }
        rewrite E. exists []. reflexivity.
      + pose proof (znth_some_range _ _ _ Hn) as Hr. rewrite znth_cons_pos in Hn by lia.
        destruct (IH (n - 1) Hn) as [l E].
        { intros m w Hm Hw. apply (Hl (m + 1) w); [lia|]. rewrite znth_cons_pos by lia. replace (m + 1 - 1) with m by lia. exact Hw. }
        unfold writes_to in E. destruct (q =? p); [cbn [map snd rev]; rewrite E; exists (l ++ [u]); reflexivity|exists l; exact E].
  Qed.
  Lemma writes_none (ws : list (Z * A)) p : (forall w, In w ws -> fst w <> p) -> writes_to p ws = [].
  Proof.
    intros H. unfold writes_to. replace (filter _ ws) with (@nil (Z * A)); [reflexivity|]. induction ws as [|w ws IH]; [reflexivity|].
    cbn. destruct (fst w =? p) eqn:E; [apply Z.eqb_eq in E; exfalso; apply (H w); [left; reflexivity|exact E]|]. apply IH. intros; apply H; right; assumption.
  Qed.

  (* the writes of an assignment *)
  Definition pairs (I : list Z) (R : val A) (l : list A) : Prop := (sizeOf R = 1 /\ exists v, elemsOf R = [v] /\ l = map (fun _ => v) I) \/ (sizeOf R <> 1 /\ l = elemsOf R).
  Lemma assignValue_writes f ds I R (s : astate S A) : (sizeOf R = 1 \/ filter notone ds = filter notone (shapeOf R) /\ zlen I = sizeOf R) ->
    exists l, zlen l = zlen I /\ pairs I R l /\ assignValue k f (mkArr ds I) R s = assign_all k f (map (fun w => (fst w, Ok (snd w))) (combine I l)) s.
  Proof.
    intros HC. unfold assignValue. cbn [elems]. destruct (sizeOf R =? 1) eqn:E1.
    - apply Z.eqb_eq in E1. destruct (elemsOf R) as [|v [|w l]] eqn:El; [unfold sizeOf in E1; rewrite El in E1; discriminate| |unfold sizeOf in E1; rewrite El, !zlen_cons in E1; pose proof (zlen_nonneg l); lia].
      exists (map (fun _ => v) I). split; [apply zlen_map|]. split; [left; split; [exact E1|]; exists v; split; [exact El|reflexivity]|].
      unfold ebind, elift. unfold zat, znth. cbn [Z.ltb Z.compare Z.to_nat nth_error]. cbv iota beta. apply (f_equal (fun w => assign_all k f w s)). clear. induction I as [|i I IH]; [reflexivity|]. cbn. f_equal. exact IH.
    - apply Z.eqb_neq in E1. destruct HC as [HC|[HC HI]]; [contradiction|]. exists (elemsOf R). split; [unfold sizeOf in HI; congruence|]. split; [right; split; [exact E1|reflexivity]|].
      cbn [dims elems]. destruct (list_eq_dec Z.eq_dec (filter notone ds) (filter notone (shapeOf R))) as [_|n]; [|contradiction]. cbn [negb].
      apply (f_equal (fun w => assign_all k f w s)). assert (HE : elemsOf R = elems (asArr R)) by (destruct R; reflexivity). unfold sizeOf in HI. rewrite HE in HI |- *. set (b := asArr R) in *.
      assert (forall (m : Z) (I : list Z), 0 <= m -> zlen I = zlen (elems b) - m ->
        map (fun '(j, i) => (i, AtB b j)) (combine (map (fun j => m + j) (zseq (zlen I))) I) = map (fun w : Z * A => (fst w, Ok (snd w))) (combine I (skipn (Z.to_nat m) (elems b)))) as G.
      { clear. intros m I. revert m. induction I as [|i I IH]; intros m Hm HI; [cbn; reflexivity|].
        rewrite zlen_cons in *. replace (1 + zlen I) with (zlen I + 1) by lia. rewrite zseq_cons by apply zlen_nonneg. cbn [map combine].
        destruct (znth_in_range (elems b) m) as [x Hx]; [pose proof (zlen_nonneg I); lia|].
        assert (Hs : skipn (Z.to_nat m) (elems b) = x :: skipn (Z.to_nat (m + 1)) (elems b)).
        { replace (Z.to_nat (m + 1)) with (Datatypes.S (Z.to_nat m)) by lia. apply skipn_cons_nth. unfold znth in Hx. destruct (m <? 0) eqn:Em in Hx; [discriminate|exact Hx]. }
        rewrite Hs. cbn [combine map fst snd]. f_equal; [f_equal; replace (m + 0) with m by lia; apply AtB_ok, Hx|].
        rewrite <- (IH (m + 1)) by lia. f_equal. f_equal. rewrite map_map. apply map_ext. intros; lia. }
      specialize (G 0 I). cbn [Z.to_nat skipn] in G. rewrite <- G by lia. f_equal. f_equal. rewrite map_ext with (g := fun j => j) by (intros; lia). rewrite map_id. reflexivity.
  Qed.

  Lemma znth_combine {X Y} (l : list X) (m : list Y) i x y : znth l i = Some x -> znth m i = Some y -> znth (combine l m) i = Some (x, y).
  Proof.
    revert m i. induction l as [|x0 l IH]; intros [|y0 m] i Hx Hy; try (apply znth_In in Hx; contradiction); try (apply znth_In in Hy; contradiction).
    pose proof (znth_some_range _ _ _ Hx). cbn [combine]. destruct (Z.eq_dec i 0) as [->|]; [unfold znth in *; cbn in *; congruence|].
    rewrite znth_cons_pos in Hx by lia. rewrite znth_cons_pos in Hy by lia. rewrite znth_cons_pos by lia. apply IH; assumption.
  Qed.
  Lemma znth_combine_inv {X Y} (l : list X) (m : list Y) i w : znth (combine l m) i = Some w -> znth l i = Some (fst w) /\ znth m i = Some (snd w).
  Proof.
    revert m i. induction l as [|x0 l IH]; intros [|y0 m] i H; try (apply znth_In in H; contradiction).
    pose proof (znth_some_range _ _ _ H). cbn [combine] in H. destruct (Z.eq_dec i 0) as [->|]; [unfold znth in *; cbn in *; injection H as <-; auto|].
    rewrite znth_cons_pos in H by lia. rewrite !znth_cons_pos by lia. apply IH; assumption.
  Qed.
  Lemma pairs_value I R l lens js v : pairs I R l -> zlen l = size lens -> inb lens js -> value_for R lens js v -> zlen I = size lens -> znth l (pos lens js) = Some v.
  Proof.
    intros HP Hl Hj Hv HI. pose proof (pos_range _ _ Hj) as Hr. destruct HP as [[H1 (w & Hw & ->)]|[H1 ->]].
    - destruct Hv as [Hv|[Hv _]]; [|unfold sizeOf in H1; contradiction]. rewrite Hw in Hv. injection Hv as <-.
      destruct (znth_in_range I (pos lens js)) as [i Hi]; [lia|]. rewrite znth_map, Hi. reflexivity.
    - destruct Hv as [Hv|[_ Hv]]; [unfold sizeOf in H1; rewrite Hv in H1; exfalso; apply H1; reflexivity|exact Hv].
  Qed.
  Definition value_ok (R : val A) : Prop := match R with Scal _ => True | Emp => False | Arr b => wf b end.
  Lemma conform_size R lens : value_ok R -> fits_selection R lens -> sizeOf R = 1 \/ filter notone lens = filter notone (shapeOf R) /\ size lens = sizeOf R.
  Proof.
    intros Hv [[v Hx]|Hx]; [left; unfold sizeOf; rewrite Hx; reflexivity|]. destruct R as [x| |b]; [left; reflexivity|contradiction|]. right.
    cbn [shapeOf] in *. split; [symmetry; exact Hx|]. unfold sizeOf. cbn [elemsOf]. destruct Hv as (_ & _ & ->).
    rewrite <- (size_filter lens), <- (size_filter (dims b)). f_equal. symmetry. exact Hx.
  Qed.

  (* the state after an assignment: writes at the positions of I, in order *)
  Lemma asgn_run f o spec (a : arr A) sel R (s : S) : wf a -> value_ok R -> selects o spec (dims a) sel -> fits_selection R (map zlen sel) ->
    exists I l, zlen I = size (map zlen sel) /\ zlen l = zlen I /\ pairs I R l /\
      (forall js idx, addresses sel js idx -> inb (dims a) idx /\ znth I (pos (map zlen sel) js) = Some (pos (dims a) idx)) /\
      (forall j p, znth I j = Some p -> exists js idx, addresses sel js idx /\ inb (dims a) idx /\ j = pos (map zlen sel) js /\ p = pos (dims a) idx) /\
      let r := assign_all k f (map (fun w => (fst w, Ok (snd w))) (combine I l)) (mkAsg a None, s) in
      fst (asgn f o spec R a) s = (fst r, snd (snd r)) /\
      snd (asgn f o spec R a) s = match fst r with Ok _ => cur (fst (snd r)) | _ => orig (fst (snd r)) end.
  Proof.
    intros Hw Hv Hs Hf. destruct (isel_ok o spec a sel Hw Hs) as (I & E & L & P1 & P2).
    destruct (assignValue_writes f (filter notone (map zlen sel)) I R (mkAsg a None, s)) as (l & Hl & HP & EA).
    { destruct (conform_size R _ Hv Hf) as [H|[H1 H2]]; [left; exact H|right]. split; [|lia]. rewrite <- H1. clear.
      induction (map zlen sel) as [|d ds IH]; [reflexivity|]. cbn. destruct (notone d) eqn:Ed; [cbn; rewrite Ed; f_equal; exact IH|exact IH]. }
    exists I, l. repeat (split; [assumption|]). cbv zeta. rewrite <- EA. unfold asgn, assignScalar. cbn [fst snd]. unfold ebind, elift. rewrite E.
    destruct (assignValue k f _ R (mkAsg a None, s)) as [[u| |] [st s']]; cbn [fst snd]; split; reflexivity.
  Qed.
  Lemma in_range_pairs I (l : list A) (a : arr A) sel : wf a ->
    (forall j p, znth I j = Some p -> exists js idx, addresses sel js idx /\ inb (dims a) idx /\ j = pos (map zlen sel) js /\ p = pos (dims a) idx) ->
    Forall (fun w => fst w = -1 \/ 0 <= fst w < zlen (elems (cur (mkAsg a None)))) (combine I l).
  Proof.
    intros (_ & _ & W) P. apply Forall_forall. intros w Hw. apply In_znth in Hw as [j Hj]. apply znth_combine_inv in Hj as [Hj _].
    apply P in Hj as (js & idx & _ & Hi & _ & ->). right. cbn. rewrite W. apply pos_range, Hi.
  Qed.

  (* plain assignment *)
  Theorem C19_assign o spec (a : arr A) sel X (s : S) : wf a -> value_ok X -> selects o spec (dims a) sel -> fits_selection X (map zlen sel) ->
    exists b, fst (asgn None o spec X a) s = (Ok tt, s) /\ snd (asgn None o spec X a) s = b /\ wf b /\ dims b = dims a /\
      (* the cell gets the value that goes to the last position that names it *)
      (forall js idx v, addresses sel js idx -> value_for X (map zlen sel) js v ->
         (forall js', addresses sel js' idx -> pos (map zlen sel) js' <= pos (map zlen sel) js) ->
         exists y, elem b idx = Some y /\ stored k v y) /\
      (* no other cell changes *)
      (forall idx, inb (dims a) idx -> (forall js, ~ addresses sel js idx) -> elem b idx = elem a idx).
  Proof.
    intros Hw Hv Hs Hf. destruct (asgn_run None o spec a sel X s Hw Hv Hs Hf) as (I & l & L & Ll & HP & P1 & P2 & E1 & E2).
    destruct (assign_all_plain k (stored k) ltac:(left; reflexivity) ltac:(right; assumption) (combine I l) (mkAsg a None) s (in_range_pairs I l a sel Hw P2)) as (st & R & B & V).
    exists (cur st). rewrite R in E1, E2. cbn [fst snd] in E1, E2. split; [exact E1|]. split; [exact E2|]. split; [apply (elem_upd_wf a); [exact Hw|exact B]|].
    destruct B as [B1 B2]. cbn [cur up orig] in *. split; [exact B1|]. split.
    - intros js idx v Ha Hx Hlast. destruct (P1 js idx Ha) as [Hi Hp]. pose proof (addresses_inb _ _ _ Ha) as Hj. unfold elem. rewrite B1.
      assert (Hl' : znth l (pos (map zlen sel) js) = Some v) by (apply (pairs_value I X); [exact HP|lia|exact Hj|exact Hx|exact L]).
      destruct (writes_last (combine I l) _ _ _ (znth_combine _ _ _ _ _ Hp Hl')) as [t Et].
      { intros m w Hm Hw' Hq. apply znth_combine_inv in Hw' as [H1 _]. destruct (P2 _ _ H1) as (js' & idx' & Ha' & Hi' & -> & Hpp).
        assert (idx' = idx) as -> by (apply (pos_inj (dims a)); [exact Hi'|exact Hi|congruence]). apply Hlast in Ha'. lia. }
      specialize (V (pos (dims a) idx) (proj1 (pos_range _ _ Hi))). rewrite Et in V. exact V.
    - intros idx Hi Hn. unfold elem. rewrite B1. specialize (V (pos (dims a) idx) (proj1 (pos_range _ _ Hi))).
      rewrite writes_none in V; [exact V|]. intros w Hw' Hq. apply In_znth in Hw' as [j Hj]. apply znth_combine_inv in Hj as [H1 _].
      destruct (P2 _ _ H1) as (js' & idx' & Ha' & Hi' & -> & Hpp). apply (Hn js'). replace idx with idx'; [exact Ha'|]. apply (pos_inj (dims a)); [exact Hi'|exact Hi|congruence].
  Qed.
  (* modified assignment A[..] h←X *)
  Theorem C19_modified o spec (a : arr A) sel X (g : A -> A -> eff S A) (h : A -> A -> A) (s : S) :
    (forall v x, conv k v = Some x -> x = v) -> (forall x v s, g x v s = (Ok (h x v), s)) ->
    wf a -> value_ok X -> selects o spec (dims a) sel -> fits_selection X (map zlen sel) ->
    exists b, fst (asgn (Some g) o spec X a) s = (Ok tt, s) /\ snd (asgn (Some g) o spec X a) s = b /\ wf b /\ dims b = dims a /\
      (forall js idx v x, addresses sel js idx -> value_for X (map zlen sel) js v -> (forall js', addresses sel js' idx -> js' = js) ->
         elem a idx = Some x -> elem b idx = Some (h x v)) /\
      (forall idx, inb (dims a) idx -> (forall js, ~ addresses sel js idx) -> elem b idx = elem a idx).
  Proof.
    intros Hc Hg Hw Hv Hs Hf. destruct (asgn_run (Some g) o spec a sel X s Hw Hv Hs Hf) as (I & l & L & Ll & HP & P1 & P2 & E1 & E2).
    destruct (assign_all_mod k g h Hc Hg (combine I l) (mkAsg a None) s (in_range_pairs I l a sel Hw P2)) as (st & R & B & V).
    exists (cur st). rewrite R in E1, E2. cbn [fst snd] in E1, E2. split; [exact E1|]. split; [exact E2|]. split; [apply (elem_upd_wf a); [exact Hw|exact B]|].
    destruct B as [B1 B2]. cbn [cur up orig] in *. split; [exact B1|]. split.
    - intros js idx v x Ha Hx Hu He. destruct (P1 js idx Ha) as [Hi Hp]. pose proof (addresses_inb _ _ _ Ha) as Hj. unfold elem in *. rewrite B1.
      assert (Hl' : znth l (pos (map zlen sel) js) = Some v) by (apply (pairs_value I X); [exact HP|lia|exact Hj|exact Hx|exact L]).
      rewrite (V _ x (proj1 (pos_range _ _ Hi)) He). f_equal.
      replace (writes_to (pos (dims a) idx) (combine I l)) with [v]; [reflexivity|]. symmetry.
      pose proof (znth_combine _ _ _ _ _ Hp Hl') as Hc'.
      assert (Honly : forall m w, znth (combine I l) m = Some w -> fst w = pos (dims a) idx -> m = pos (map zlen sel) js).
      { intros m w Hm Hq. apply znth_combine_inv in Hm as [H1 _]. destruct (P2 _ _ H1) as (js' & idx' & Ha' & Hi' & -> & Hpp).
        rewrite (Hu js'); [reflexivity|]. replace idx with idx'; [exact Ha'|]. apply (pos_inj (dims a)); [exact Hi'|exact Hi|congruence]. }
      revert Hc' Honly. generalize (pos (dims a) idx) (pos (map zlen sel) js) (combine I l). clear. intros p n ws. revert n. induction ws as [|[q u] ws IH]; intros n Hn Ho.
      + apply znth_In in Hn. contradiction.
      + pose proof (znth_some_range _ _ _ Hn) as Hr. unfold writes_to. cbn [filter fst]. destruct (Z.eq_dec n 0) as [->|Hn0].
        * injection Hn as <- <-. rewrite Z.eqb_refl. cbn [map snd]. f_equal. apply writes_none. intros w Hw Hq. apply In_znth in Hw as [m Hm].
          pose proof (znth_some_range _ _ _ Hm). specialize (Ho (m + 1) w). rewrite znth_cons_pos in Ho by lia. replace (m + 1 - 1) with m in Ho by lia. specialize (Ho Hm Hq). lia.
        * destruct (q =? p) eqn:E; [apply Z.eqb_eq in E; specialize (Ho 0 (q, u) eq_refl E); lia|]. rewrite znth_cons_pos in Hn by lia. apply (IH (n - 1) Hn).
          intros m w Hm Hq. pose proof (znth_some_range _ _ _ Hm). specialize (Ho (m + 1) w). rewrite znth_cons_pos in Ho by lia. replace (m + 1 - 1) with m in Ho by lia. specialize (Ho Hm Hq). lia.
    - intros idx Hi Hn. unfold elem. rewrite B1. destruct (znth_in_range (elems a) (pos (dims a) idx)) as [x Hx]; [destruct Hw as (_ & _ & ->); apply pos_range, Hi|].
      rewrite (V _ x (proj1 (pos_range _ _ Hi)) Hx), Hx. f_equal. rewrite writes_none; [reflexivity|]. intros w Hw' Hq. apply In_znth in Hw' as [j Hj]. apply znth_combine_inv in Hj as [H1 _].
      destruct (P2 _ _ H1) as (js' & idx' & Ha' & Hi' & -> & Hpp). apply (Hn js'). replace idx with idx'; [exact Ha'|]. apply (pos_inj (dims a)); [exact Hi'|exact Hi|congruence].
  Qed.
  (* a bad index, or a value that does not fit: an error, and nothing changes *)
  Theorem C19_bad_index f o spec (a : arr A) X (s : S) : wf a -> spec <> [] -> (forall sel, ~ selects o spec (dims a) sel) ->
    fst (asgn f o spec X a) s = (Err, s) /\ snd (asgn f o spec X a) s = a.
  Proof.
    intros (W1 & W2 & W3) Hn Hs. assert (E : indexSelection o spec a = Err).
    { unfold indexSelection. destruct spec; [contradiction|]. apply indexArray_err; assumption. }
    unfold asgn, assignScalar. cbn [fst snd]. unfold ebind, elift. rewrite E. split; reflexivity.
  Qed.
  Theorem C19_bad_value f o spec (a : arr A) sel X (s : S) : wf a -> selects o spec (dims a) sel -> ~ fits_selection X (map zlen sel) ->
    fst (asgn f o spec X a) s = (Err, s) /\ snd (asgn f o spec X a) s = a.
  Proof.
    intros Hw Hs Hf. destruct (isel_ok o spec a sel Hw Hs) as (I & E & L & _). unfold asgn, assignScalar. cbn [fst snd]. unfold ebind, elift. rewrite E.
    unfold assignValue. destruct (sizeOf X =? 1) eqn:E1.
    - exfalso. apply Hf. left. apply Z.eqb_eq in E1. unfold sizeOf in E1. destruct (elemsOf X) as [|v [|w l]]; [discriminate|eauto|rewrite !zlen_cons in E1; pose proof (zlen_nonneg l); lia].
    - cbn [dims]. assert (Ef : filter notone (filter notone (map zlen sel)) = filter notone (map zlen sel)).
      { clear. induction (map zlen sel) as [|d ds IH]; [reflexivity|]. cbn. destruct (notone d) eqn:Ed; [cbn; rewrite Ed; f_equal; exact IH|exact IH]. }
      rewrite Ef. destruct (list_eq_dec Z.eq_dec _ _) as [e|_]; [exfalso; apply Hf; right; symmetry; exact e|]. split; reflexivity.
  Qed.
  (* whatever happens, also when the modifying function fails half way: the shape
     and the cells that are not addressed are unchanged *)
  Theorem C19_frame f o spec (a : arr A) sel X (s : S) : wf a -> value_ok X -> selects o spec (dims a) sel ->
    let b := snd (asgn f o spec X a) s in
    wf b /\ dims b = dims a /\ forall idx, inb (dims a) idx -> (forall js, ~ addresses sel js idx) -> elem b idx = elem a idx.
  Proof.
    intros Hw Hv Hs. cbv zeta.
    assert (Hd : {fits_selection X (map zlen sel)} + {~ fits_selection X (map zlen sel)}).
    { unfold fits_selection. destruct (list_eq_dec Z.eq_dec (filter (fun d => negb (d =? 1)) (shapeOf X)) (filter (fun d => negb (d =? 1)) (map zlen sel))); [left; right; assumption|].
      destruct (elemsOf X) as [|v [|w l]]; [right; intros [[v Hx]|Hx]; [discriminate|contradiction]|left; left; eauto|right; intros [[u Hx]|Hx]; [discriminate|contradiction]]. }
    destruct Hd as [Hf|Hf].
    - destruct (asgn_run f o spec a sel X s Hw Hv Hs Hf) as (I & l & L & Ll & HP & P1 & P2 & _ & E2). rewrite E2. clear E2.
      destruct (assign_all_frame k f (map (fun w => (fst w, Ok (snd w))) (combine I l)) (mkAsg a None) s) as (F1 & F2 & F3 & _). cbn [cur up orig] in *.
      assert (G : forall idx, inb (dims a) idx -> (forall js, ~ addresses sel js idx) -> ~ In (pos (dims a) idx) (map fst (map (fun w : Z * A => (fst w, Ok (snd w))) (combine I l)))).
      { intros idx Hi Hn Hx. rewrite map_map in Hx. apply in_map_iff in Hx as (w & Hq & Hx). apply In_znth in Hx as [j Hj]. apply znth_combine_inv in Hj as [H1 _].
        destruct (P2 _ _ H1) as (js' & idx' & Ha' & Hi' & -> & Hpp). apply (Hn js'). replace idx with idx'; [exact Ha'|]. apply (pos_inj (dims a)); [exact Hi'|exact Hi|]. cbn in Hq. congruence. }
      destruct (fst (assign_all k f _ _)) as [u| |].
      2,3: split; [apply (elem_upd_wf a); [exact Hw|exact F1]|]; destruct F1 as [B1 _]; split; [exact B1|]; intros idx Hi Hn; unfold elem; rewrite B1; apply (proj1 (F3 _ (G idx Hi Hn))).
      split; [apply (elem_upd_wf a); [exact Hw|exact F2]|]. destruct F2 as [B1 _]. split; [exact B1|]. intros idx Hi Hn. unfold elem. rewrite B1. apply (proj2 (F3 _ (G idx Hi Hn))).
    - destruct (C19_bad_value f o spec a sel X s Hw Hs Hf) as [_ ->]. split; [exact Hw|]. split; reflexivity.
  Qed.
End C19.
Print Assumptions C19_assign.
Print Assumptions C19_modified.
Print Assumptions C19_frame.

(* ------------------------------------------------------------------ C76 *)
Section SEL.
  Context {S A : Type} (k : akind A).
  (* any selection *)
  Lemma asgn_sel f (sel : arr A -> outcome (arr Z)) (a : arr A) ds I R (s : S) : wf a -> sel a = Ok (mkArr ds I) ->
    (sizeOf R = 1 \/ filter notone ds = filter notone (shapeOf R) /\ zlen I = sizeOf R) ->
    exists l, zlen l = zlen I /\ pairs I R l /\
      let r := assign_all k f (map (fun w => (fst w, Ok (snd w))) (combine I l)) (mkAsg a None, s) in
      fst (assignScalar k f sel R a) s = (fst r, snd (snd r)) /\
      snd (assignScalar k f sel R a) s = match fst r with Ok _ => cur (fst (snd r)) | _ => orig (fst (snd r)) end.
  Proof.
    intros Hw E HC. destruct (assignValue_writes k f ds I R (mkAsg a None, s) HC) as (l & Hl & HP & EA).
    exists l. repeat (split; [assumption|]). cbv zeta. rewrite <- EA. unfold assignScalar. cbn [fst snd]. unfold ebind, elift. rewrite E.
    destruct (assignValue k f _ R (mkAsg a None, s)) as [[u| |] [st s']]; cbn [fst snd]; split; reflexivity.
  Qed.
  (* plain assignment through a selection that names each cell at most once *)
  Lemma asgn_distinct (sel : arr A -> outcome (arr Z)) (a : arr A) ds I R (s : S) : wf a -> sel a = Ok (mkArr ds I) ->
    (sizeOf R = 1 \/ filter notone ds = filter notone (shapeOf R) /\ zlen I = sizeOf R) ->
    NoDup I -> Forall (fun p => 0 <= p < zlen (elems a)) I ->
    exists b l, fst (assignScalar k None sel R a) s = (Ok tt, s) /\ snd (assignScalar k None sel R a) s = b /\ same_box b a /\ zlen l = zlen I /\ pairs I R l /\
      (forall j p v, znth I j = Some p -> znth l j = Some v -> exists y, znth (elems b) p = Some y /\ stored k v y) /\
      (forall p, 0 <= p -> ~ In p I -> znth (elems b) p = znth (elems a) p).
  Proof.
    intros Hw E HC ND HF. destruct (asgn_sel None sel a ds I R s Hw E HC) as (l & Hl & HP & E1 & E2).
    destruct (assign_all_plain k (stored k) ltac:(left; reflexivity) ltac:(right; assumption) (combine I l) (mkAsg a None) s) as (st & Rn & B & V).
    { apply Forall_forall. intros w Hx. apply In_znth in Hx as [j Hj]. apply znth_combine_inv in Hj as [Hj _]. right. cbn. rewrite Forall_forall in HF. apply HF. apply (znth_In _ j _ Hj). }
    exists (cur st), l. rewrite Rn in E1, E2. cbn [fst snd] in E1, E2. split; [exact E1|]. split; [exact E2|]. split; [exact B|]. split; [exact Hl|]. split; [exact HP|]. split.
    - intros j p v Hp Hv. pose proof (znth_In _ _ _ Hp) as Hi. rewrite Forall_forall in HF. destruct (HF _ Hi) as [H0 _]. specialize (V p H0).
      destruct (writes_last (combine I l) j p v (znth_combine _ _ _ _ _ Hp Hv)) as [t Et]; [|rewrite Et in V; exact V].
      intros m w Hm Hx Hq. apply znth_combine_inv in Hx as [Hx _]. rewrite Hq in Hx. pose proof (NoDup_znth _ _ _ _ ND Hp Hx). lia.
    - intros p H0 Hn. specialize (V p H0). rewrite writes_none in V; [exact V|]. intros w Hx Hq. apply Hn. apply In_znth in Hx as [j Hj]. apply znth_combine_inv in Hj as [Hj _].
      rewrite Hq in Hj. apply (znth_In _ j _ Hj).
  Qed.
End SEL.
(* A[f]←X, f a predicate: q decides for every (index, element); the elements where
   it holds become X, the others stay *)
Lemma marked_In i ns p : In p (marked i ns) <-> znth ns (p - i) = Some 1.
Proof.
  revert i. induction ns as [|n ns IH]; intros i; [rewrite marked_nil; split; [intros []|intros H; apply znth_In in H; contradiction]|].
  rewrite marked_cons. assert (E : p <> i -> znth (n :: ns) (p - i) = znth ns (p - (i + 1))).
  { intros Hp. destruct (Z.ltb_spec p i); [unfold znth; replace (p - i <? 0) with true by lia; replace (p - (i + 1) <? 0) with true by lia; reflexivity|].
    rewrite znth_cons_pos by lia. f_equal. lia. }
  destruct (n =? 1) eqn:En; [apply Z.eqb_eq in En; subst n|apply Z.eqb_neq in En].
  - destruct (Z.eq_dec p i) as [->|Hp]; [replace (i - i) with 0 by lia; split; [reflexivity|left; reflexivity]|]. rewrite E by exact Hp. rewrite <- IH.
    split; [intros [->|H]; [contradiction|exact H]|right; assumption].
  - destruct (Z.eq_dec p i) as [->|Hp]; [|rewrite E by exact Hp; apply IH]. replace (i - i) with 0 by lia. rewrite IH. split; [intros H; apply znth_some_range in H; lia|].
    unfold znth. cbn. congruence.
Qed.
Lemma marked_NoDup i ns : NoDup (marked i ns).
Proof.
  revert i. induction ns as [|n ns IH]; intros i; [constructor|]. rewrite marked_cons. destruct (n =? 1); [|apply IH]. constructor; [|apply IH].
  rewrite marked_In. intros H. apply znth_some_range in H. lia.
Qed.

(* f is called once per element, in row-major order, with the index (counted from
   the origin) and the element; the selected positions are those where it answered 1 *)
Theorem C76_calls {S A} (f' : list Z -> A -> eff S Z) o (a : arr A) s : wf a ->
  funcArrayIndex (fun idx x => emap (fun n => FNum (Some n)) (f' idx x)) o a s =
  (let! ns := mapE (fun p => f' (map (fun i => o + i) (fst p)) (snd p)) (combine (all_idx (dims a)) (elems a)) in
   eret (let I := filter (fun p => match znth ns p with Some n => n =? 1 | None => false end) (zseq (zlen ns)) in mkArr [zlen I] I)) s.
Proof.
  intros Hw. rewrite (funcArrayIndex_spec _ f' o a s Hw) by reflexivity. unfold ebind. destruct (mapE _ _ s) as [[ns| |] s']; try reflexivity.
  unfold eret. cbv zeta. assert (E : marked 0 ns = filter (fun p => match znth ns p with Some n => n =? 1 | None => false end) (zseq (zlen ns))); [|rewrite E; reflexivity].
  clear. assert (G : forall m ns, marked m ns = map (fun j => m + j) (filter (fun p => match znth ns p with Some n => n =? 1 | None => false end) (zseq (zlen ns)))).
  { intros m l. revert m. induction l as [|n l IH]; intros m; [reflexivity|]. rewrite marked_cons, zlen_cons. replace (1 + zlen l) with (zlen l + 1) by lia.
    rewrite zseq_cons by apply zlen_nonneg. cbn [filter]. unfold znth at 1. cbn [Z.ltb Z.compare Z.to_nat nth_error].
    assert (E : map (fun j => m + j) (filter (fun p => match znth (n :: l) p with Some n0 => n0 =? 1 | None => false end) (map (fun j => j + 1) (zseq (zlen l)))) = marked (m + 1) l).
    { rewrite IH. assert (H : forall q, In q (zseq (zlen l)) -> 0 <= q) by (intros q Hq; apply In_zseq in Hq; lia). clear IH. induction (zseq (zlen l)) as [|q qs IHq]; [reflexivity|]. cbn [map filter].
      assert (Hq : 0 <= q) by (apply H; left; reflexivity). rewrite (znth_cons_pos n l (q + 1)) by lia. replace (q + 1 - 1) with q by lia.
      destruct (match znth l q with Some n0 => n0 =? 1 | None => false end); [cbn [map]; f_equal; [lia|]|]; apply IHq; intros; apply H; right; assumption. }
    destruct (n =? 1); [cbn [map]; f_equal; [lia|]|]; symmetry; exact E. }
  rewrite G. rewrite map_ext with (g := fun j => j) by (intros; lia). apply map_id.
Qed.
Definition pred_answer {S A} (q : list Z -> A -> bool) : list Z -> A -> eff S fanswer := fun idx x => eret (FNum (Some (if q idx x then 1 else 0))).
Definition func_selection {A} (q : list Z -> A -> bool) o (a : arr A) : outcome (arr Z) := fst (funcArrayIndex (@pred_answer unit A q) o a tt).
Lemma func_sel_ok {A} (q : list Z -> A -> bool) o (a : arr A) : wf a ->
  exists I, func_selection q o a = Ok (mkArr [zlen I] I) /\ NoDup I /\
    forall p, In p I <-> exists idx x, inb (dims a) idx /\ p = pos (dims a) idx /\ elem a idx = Some x /\ q (map (fun i => o + i) idx) x = true.
Proof.
  intros Hw. unfold func_selection.
  rewrite (funcArrayIndex_spec _ (fun idx x => eret (if q idx x then 1 else 0)) o a tt Hw) by reflexivity.
  unfold ebind. rewrite (mapE_ok_pure _ (fun p => if q (map (fun i => o + i) (fst p)) (snd p) then 1 else 0)) by reflexivity. unfold eret. cbn [fst].
  set (ns := map _ _). exists (marked 0 ns). split; [reflexivity|]. split; [apply marked_NoDup|]. intros p. rewrite marked_In. replace (p - 0) with p by lia. subst ns. rewrite znth_map.
  destruct Hw as (W1 & W2 & W3). split.
  - intros H. destruct (znth (combine (all_idx (dims a)) (elems a)) p) as [w|] eqn:Ew; [|discriminate]. cbn in H. apply znth_combine_inv in Ew as [H1 H2].
    pose proof (znth_some_range _ _ _ H1) as Hr. rewrite zlen_all_idx in Hr by exact W2. exists (fst w), (snd w).
    assert (Hi : inb (dims a) (fst w)) by (apply In_all_idx, (znth_In _ p _ H1)). split; [exact Hi|].
    assert (p = pos (dims a) (fst w)) as Hp.
    { apply (NoDup_znth (all_idx (dims a)) p _ (fst w)); [apply NoDup_all_idx; exact W2|exact H1|apply znth_all_idx, Hi]. }
    split; [exact Hp|]. unfold elem. rewrite <- Hp. split; [exact H2|]. destruct (q _ _); [reflexivity|discriminate].
  - intros (idx & x & Hi & -> & He & Hq). rewrite (znth_combine _ _ _ _ _ (znth_all_idx _ _ Hi) He). cbn. rewrite Hq. reflexivity.
Qed.
Theorem C76_assign {S A} (k : akind A) (q : list Z -> A -> bool) o (a : arr A) v (s : S) : wf a ->
  exists b, fst (assignScalar k None (func_selection q o) (Scal v) a) s = (Ok tt, s) /\ snd (assignScalar k None (func_selection q o) (Scal v) a) s = b /\
    wf b /\ dims b = dims a /\
    forall idx x, inb (dims a) idx -> elem a idx = Some x ->
      if q (map (fun i => o + i) idx) x then exists y, elem b idx = Some y /\ stored k v y else elem b idx = Some x.
Proof.
  intros Hw. destruct (func_sel_ok q o a Hw) as (I & E & ND & HI). destruct (asgn_distinct k (func_selection q o) a _ I (Scal v) s Hw E (or_introl eq_refl) ND) as (b & l & E1 & E2 & B & Hl & HP & V1 & V2).
  { apply Forall_forall. intros p Hp. apply HI in Hp as (idx & x & Hi & -> & _). destruct Hw as (_ & _ & ->). apply pos_range, Hi. }
  exists b. split; [exact E1|]. split; [exact E2|]. split; [apply (elem_upd_wf a); assumption|]. destruct B as [B1 _]. split; [exact B1|].
  intros idx x Hi He. destruct (q _ x) eqn:Eq.
  - assert (Hin : In (pos (dims a) idx) I) by (apply HI; exists idx, x; auto). apply In_znth in Hin as [j Hj]. unfold elem. rewrite B1. apply (V1 j _ v Hj).
    destruct HP as [[_ (w & Hw' & ->)]|[H _]]; [injection Hw' as <-; rewrite znth_map, Hj; reflexivity|exfalso; apply H; reflexivity].
  - unfold elem in *. rewrite B1. rewrite V2; [exact He|apply pos_range, Hi|]. intros Hin. apply HI in Hin as (idx' & x' & Hi' & Hp & He' & Hq').
    apply pos_inj in Hp; [|exact Hi|exact Hi']. subst idx'. unfold elem in He'. rewrite He in He'. injection He' as <-. congruence.
Qed.
(* an answer that is no boolean number stops with an error and changes nothing *)
Theorem C76_bad_answer {S A} (f : list Z -> A -> eff S fanswer) o (a : arr A) x r s : elems a = x :: r ->
  fst (f (map (fun i => o + i) (zerosZ (length (dims a)))) x s) = Ok FOther -> fst (funcArrayIndex f o a s) = Err.
Proof. intros E H. unfold funcArrayIndex. rewrite E. cbn [fai_loop]. unfold ebind at 1 2. destruct (f _ x s) as [[v| |] s']; cbn in H; try discriminate. injection H as ->. reflexivity. Qed.
(* an empty answer skips the element, but then the index is not advanced: the next
   element is presented with the index of the skipped one *)
Theorem C76_empty_answer_shifts_index {S A} (f : list Z -> A -> eff S fanswer) o ds idx i x y r s :
  (forall t, f (map (fun n => o + n) idx) x t = (Ok FEmpty, t)) ->
  fai_loop f o ds idx i (x :: y :: r) s = fai_loop f o ds idx (i + 1) (y :: r) s.
Proof. intros H. cbn [fai_loop]. unfold ebind at 1. rewrite H. reflexivity. Qed.
Print Assumptions C76_assign.

(* ------------------------------------------------------------------ C77 *)
(* (F A)←X for a selection function that yields cell h idx at idx *)
Section C77.
  Context {S A : Type} (k : akind A).
  Lemma sel_assign (sel : arr A -> outcome (arr Z)) (a : arr A) ds' h J X (s : S) : wf a -> wf X -> dims X = ds' -> sel a = Ok J ->
    (forall idx, inb ds' idx -> inb (dims a) (h idx)) -> (forall i1 i2, inb ds' i1 -> inb ds' i2 -> h i1 = h i2 -> i1 = i2) ->
    is_array ds' (fun idx => Some (pos (dims a) (h idx))) J ->
    exists b, fst (assignScalar k None sel (Arr X) a) s = (Ok tt, s) /\ snd (assignScalar k None sel (Arr X) a) s = b /\ wf b /\ dims b = dims a /\
      (forall idx v, inb ds' idx -> elem X idx = Some v -> exists y, elem b (h idx) = Some y /\ stored k v y) /\
      (forall c, inb (dims a) c -> (forall idx, inb ds' idx -> h idx <> c) -> elem b c = elem a c).
  Proof.
    intros Hw HX HdX E Hin Hinj (J1 & J2 & J3). destruct J as [dj I]. cbn [dims] in J2. subst dj. destruct J1 as (_ & Jn & JL). cbn [dims elems] in *. unfold elem in J3. cbn [dims elems] in J3.
    assert (HI : forall j p, znth I j = Some p -> exists idx, inb ds' idx /\ j = pos ds' idx /\ p = pos (dims a) (h idx)).
    { intros j p Hj. pose proof (znth_some_range _ _ _ Hj) as Hr. rewrite JL in Hr. destruct (ic_indexes_spec ds' j Jn Hr) as (idx & _ & Hi & Hp).
      exists idx. split; [exact Hi|]. split; [congruence|]. rewrite <- Hp, J3 in Hj by exact Hi. congruence. }
    assert (ND : NoDup I).
    { assert (G : forall (l : list Z), (forall i j x, znth l i = Some x -> znth l j = Some x -> i = j) -> NoDup l).
      { clear. induction l as [|x l IH]; intros H; constructor.
        - intros Hx. apply In_znth in Hx as [j Hj]. pose proof (znth_some_range _ _ _ Hj). assert (0 = j + 1); [|lia]. apply (H _ _ x); [reflexivity|]. rewrite znth_cons_pos by lia. replace (j + 1 - 1) with j by lia. exact Hj.
        - apply IH. intros i j y Hi Hj. pose proof (znth_some_range _ _ _ Hi). pose proof (znth_some_range _ _ _ Hj). assert (i + 1 = j + 1); [|lia].
          apply (H _ _ y); rewrite znth_cons_pos by lia; [replace (i + 1 - 1) with i by lia|replace (j + 1 - 1) with j by lia]; assumption. }
      apply G. intros i j x Hi Hj. apply HI in Hi as (i1 & B1 & -> & P1). apply HI in Hj as (i2 & B2 & -> & P2). f_equal. apply Hinj; [exact B1|exact B2|].
      apply (pos_inj (dims a)); [apply Hin, B1|apply Hin, B2|congruence]. }
    destruct HX as (X1 & X2 & X3). rewrite HdX in *.
    destruct (asgn_distinct k sel a ds' I (Arr X) s Hw E) as (b & l & E1 & E2 & B & Hl & HP & V1 & V2).
    { right. cbn [shapeOf]. rewrite HdX. split; [reflexivity|]. unfold sizeOf. cbn [elemsOf]. lia. }
    { exact ND. }
    { apply Forall_forall. intros p Hp. apply In_znth in Hp as [j Hj]. apply HI in Hj as (idx & Hi & _ & ->). destruct Hw as (_ & _ & ->). apply pos_range, Hin, Hi. }
    exists b. split; [exact E1|]. split; [exact E2|]. split; [apply (elem_upd_wf a); assumption|]. destruct B as [B1 _]. split; [exact B1|]. split.
    - intros idx v Hi Hv. unfold elem in *. rewrite B1. apply (V1 (pos ds' idx)); [apply J3, Hi|].
      apply (pairs_value I (Arr X)); [exact HP|lia|exact Hi| |lia]. rewrite HdX in Hv. cbn [elemsOf]. unfold value_for. cbn [elemsOf].
      destruct (Z.eq_dec (zlen (elems X)) 1) as [E0|E0]; [left|right; split; [exact E0|exact Hv]].
      destruct (elems X) as [|x0 [|x1 t]]; [discriminate| |rewrite !zlen_cons in E0; pose proof (zlen_nonneg t); lia].
      pose proof (znth_some_range _ _ _ Hv) as Hr. change (zlen [x0]) with 1 in Hr. replace (pos ds' idx) with 0 in Hv by lia. cbn in Hv. unfold znth in Hv. cbn in Hv. congruence.
    - intros c Hc Hn. unfold elem. rewrite B1. apply V2; [apply pos_range, Hc|]. intros Hp. apply In_znth in Hp as [j Hj]. apply HI in Hj as (idx & Hi & _ & Hp).
      apply (Hn idx Hi). apply (pos_inj (dims a)); [apply Hin, Hi|exact Hc|congruence].
  Qed.
  Lemma wf_positions (a : arr A) : wf a -> wf (mkArr (dims a) (zseq (zlen (elems a)))) /\ (forall c, inb (dims a) c -> elem (mkArr (dims a) (zseq (zlen (elems a)))) c = Some (pos (dims a) c)).
  Proof.
    intros (W1 & W2 & W3). split; [split; [exact W1|]; split; [exact W2|]; cbn; rewrite zlen_zseq, W3; pose proof (size_nonneg _ W2); lia|].
    intros c Hc. unfold elem. cbn [dims elems]. apply znth_zseq. rewrite W3. apply pos_range, Hc.
  Qed.
  (* after (F A)←X, F A is X; and no cell that F does not pick has changed *)
  Theorem C77_put_get F (a : arr A) ds' h X (s : S) : picks F (dims a) ds' h -> wf a -> wf X -> dims X = ds' ->
    exists b r, fst (assignScalar k None (selection (F Z)) (Arr X) a) s = (Ok tt, s) /\ snd (assignScalar k None (selection (F Z)) (Arr X) a) s = b /\
      wf b /\ dims b = dims a /\
      F A (Arr b) = Ok (Arr r) /\ dims r = dims X /\ Forall2 (stored k) (elems X) (elems r) /\
      (forall c, inb (dims a) c -> (forall idx, inb ds' idx -> h idx <> c) -> elem b c = elem a c).
  Proof.
    intros [P1 P2 P3] Hw HX HdX. destruct (wf_positions a Hw) as [Wp Ep].
    destruct (P3 Z _ Wp eq_refl) as (J & EJ & J1 & J2 & J3).
    destruct (sel_assign (selection (F Z)) a ds' h J X s Hw HX HdX) as (b & E1 & E2 & Wb & Db & V1 & V2); [unfold selection; rewrite EJ; reflexivity|exact P1|exact P2| |].
    { split; [exact J1|]. split; [exact J2|]. intros idx Hi. rewrite J3 by exact Hi. apply Ep, P1, Hi. }
    destruct (P3 A b Wb Db) as (r & Er & R1 & R2 & R3). exists b, r. split; [exact E1|]. split; [exact E2|]. split; [exact Wb|]. split; [exact Db|]. split; [exact Er|]. split; [congruence|]. split; [|exact V2].
    destruct HX as (X1 & X2 & X3). destruct R1 as (Q1 & Q2 & Q3). rewrite HdX in *. rewrite R2 in Q3.
    assert (G : forall (l m : list A), zlen l = zlen m -> (forall i x, znth l i = Some x -> exists y, znth m i = Some y /\ stored k x y) -> Forall2 (stored k) l m).
    { clear. induction l as [|x l IH]; intros [|y m] L H; [constructor|cbn in L; rewrite ?zlen_cons in L; pose proof (zlen_nonneg m); unfold zlen in L; cbn in L; lia|unfold zlen in L; cbn in L; lia|].
      constructor; [destruct (H 0 x eq_refl) as (y0 & Hy & Hs); injection Hy as <-; exact Hs|]. apply IH; [rewrite !zlen_cons in L; lia|].
      intros i z Hz. pose proof (znth_some_range _ _ _ Hz). destruct (H (i + 1) z) as (y0 & Hy & Hs); [rewrite znth_cons_pos by lia; replace (i + 1 - 1) with i by lia; exact Hz|].
      exists y0. split; [|exact Hs]. rewrite znth_cons_pos in Hy by lia. replace (i + 1 - 1) with i in Hy by lia. exact Hy. }
    apply G; [congruence|]. intros i v Hv. pose proof (znth_some_range _ _ _ Hv) as Hr. rewrite X3 in Hr. destruct (ic_indexes_spec ds' i X2 Hr) as (idx & _ & Hi & Hp).
    destruct (V1 idx v Hi) as (y & Hy & Hs); [unfold elem; rewrite HdX, Hp; exact Hv|]. exists y. split; [|exact Hs]. rewrite <- (R3 idx Hi) in Hy. unfold elem in Hy. rewrite R2, Hp in Hy. exact Hy.
  Qed.
End C77.
Print Assumptions C77_put_get.

(* the selection functions of the language that pick: reverse, transpose, rotate *)
Lemma coord ds idx k n : inb ds idx -> znth ds k = Some n -> exists i, znth idx k = Some i /\ 0 <= i < n.
Proof. intros Hi Hn. destruct (inb_coord ds idx k n Hi Hn) as (i & H1 & H2). exists i. split; assumption. Qed.
Lemma picks_axis ds k n (g : Z -> Z) (F : forall B, val B -> outcome (val B)) : znth ds k = Some n ->
  (forall i, 0 <= i < n -> 0 <= g i < n) -> (forall i j, 0 <= i < n -> 0 <= j < n -> g i = g j -> i = j) ->
  (forall B (a : arr B), wf a -> dims a = ds -> exists r, F B (Arr a) = Ok (Arr r) /\ wf r /\ dims r = ds /\
     forall idx i, inb ds idx -> znth idx k = Some i -> elem r idx = elem a (zupd idx k (g i))) ->
  picks F ds ds (fun idx => zupd idx k (g (match znth idx k with Some i => i | None => 0 end))).
Proof.
  intros Hn Hg Hj HF. split.
  - intros idx Hi. destruct (coord ds idx k n Hi Hn) as (i & Hz & Hr). rewrite Hz. apply inb_upd_same with (d := n); [exact Hi|exact Hn|apply Hg, Hr].
  - intros i1 i2 H1 H2. destruct (coord ds i1 k n H1 Hn) as (x1 & Hz1 & Hr1). destruct (coord ds i2 k n H2 Hn) as (x2 & Hz2 & Hr2). rewrite Hz1, Hz2. intros E.
    pose proof (znth_some_range _ _ _ Hz1) as L1. pose proof (znth_some_range _ _ _ Hz2) as L2.
    assert (g x1 = g x2) as Eg.
    { assert (Some (g x1) = Some (g x2)) as Es; [|congruence]. rewrite <- (znth_zupd_same i1 k (g x1)) by lia. rewrite E. apply znth_zupd_same. lia. }
    apply Hj in Eg; [|assumption|assumption]. subst x2.
    rewrite <- (zupd_id i1 k x1 Hz1), <- (zupd_id i2 k x1 Hz2), <- (zupd_zupd i1 k (g x1)), <- (zupd_zupd i2 k (g x1)). rewrite E. reflexivity.
  - intros B a Hw Hd. destruct (HF B a Hw Hd) as (r & Er & Wr & Dr & Vr). exists r. split; [exact Er|]. split; [exact Wr|]. split; [exact Dr|].
    intros idx Hi. destruct (coord ds idx k n Hi Hn) as (i & Hz & Hr). rewrite Hz. apply Vr; assumption.
Qed.
Theorem C77_reverse ds axis n : ds <> [] -> znth ds (norm_axis (zlen ds) axis) = Some n ->
  picks (fun B v => @reverse B v axis) ds ds (fun idx => zupd idx (norm_axis (zlen ds) axis) (n - 1 - match znth idx (norm_axis (zlen ds) axis) with Some i => i | None => 0 end)).
Proof.
  intros Hne Hn. apply (picks_axis ds _ n (fun i => n - 1 - i)); [exact Hn|intros; lia|intros; lia|]. intros B a Hw <-. apply C05_reverse; assumption.
Qed.
Theorem C77_transpose origin ds : (origin = 0 \/ origin = 1) -> picks (fun B v => fst (@transpose B origin None v)) ds (rev ds) (@rev Z).
Proof.
  intros Ho. split.
  - intros idx Hi. rewrite <- (rev_involutive ds). unfold inb in *. clear -Hi. revert Hi. generalize (rev ds) as l. intros l H. induction H as [|d i l idx H0 _ IH]; [constructor|].
    cbn. apply Forall2_app; [exact IH|repeat constructor; lia].
  - intros i1 i2 _ _ E. rewrite <- (rev_involutive i1), E. apply rev_involutive.
  - intros B a Hw <-. destruct (C08_monadic_transpose B origin a Ho Hw) as (r & E & Wr & Dr & Vr). exists r. split; [exact E|]. split; [exact Wr|]. split; [exact Dr|]. intros idx Hi. apply Vr, Hi.
Qed.
Theorem C77_rotate c n axis : 0 <= n -> - 2 ^ 63 <= c -> c + n <= 2 ^ 63 -> picks (fun B v => @rotate B (vec [c]) v axis) [n] [n] (fun idx => match idx with [i] => [(i + c) mod n] | _ => idx end).
Proof.
  intros Hn0 HW1 HW2. split.
  - intros idx Hi. unfold inb in Hi. inversion Hi as [|d i l idx' H0 H1]; subst. inversion H1; subst. constructor; [apply Z.mod_pos_bound; lia|constructor].
  - intros i1 i2 H1 H2. unfold inb in *. inversion H1 as [|d i l idx' H0 H3]; subst. inversion H3; subst. inversion H2 as [|d' i' l' idx'' H0' H3']; subst. inversion H3'; subst.
    intros E. injection E as E. f_equal. assert ((i - i') mod n = 0).
    { replace (i - i') with ((i + c) - (i' + c)) by lia. rewrite Zminus_mod, E, Z.sub_diag. reflexivity. }
    apply Z.mod_divide in H; [|lia]. destruct H as [q Hq]. assert (q = 0) by nia. subst q. lia.
  - intros B a Hw Hd. rewrite (wf_vec_eq a n Hw Hd).
    assert (Ln : zlen (elems a) = n) by (destruct Hw as (_ & _ & ->); rewrite Hd; cbn; lia).
    destruct (C06_rotate_vector B c (elems a) axis) as (r & E & Lr & Vr); [split; lia|]. exists (vec r). split; [exact E|].
    split; [apply wf_vec|]. split; [cbn; congruence|]. intros idx Hi. unfold inb in Hi. inversion Hi as [|d i l idx' H0 H1]; subst. inversion H1; subst.
    rewrite !elem_vec. apply Vr. lia.
Qed.
Print Assumptions C77_transpose.

(* take and drop: the cells that (L↑A) resp. (L↓A) consists of receive X; a take
   beyond an axis is an error and nothing changes *)
Lemma wf_positions1 {A} (a : arr A) : wf a -> let p := mkArr (dims a) (map (fun i => i + 1) (zseq (zlen (elems a)))) in
  wf p /\ forall c, inb (dims a) c -> elem p c = Some (pos (dims a) c + 1).
Proof.
  intros (W1 & W2 & W3). cbv zeta. split; [split; [exact W1|]; split; [exact W2|]; cbn; rewrite zlen_map, zlen_zseq, W3; pose proof (size_nonneg _ W2); lia|].
  intros c Hc. unfold elem. cbn [dims elems]. rewrite znth_map, znth_zseq; [reflexivity|]. rewrite W3. apply pos_range, Hc.
Qed.
Lemma tds_ok {A} (istake : bool) (a : arr A) L x ds' h J : wf a -> fst (takedrop 0 0 istake L (Arr (mkArr (dims a) (map (fun i => i + 1) (zseq (zlen (elems a)))))) x) = Ok (Arr J) ->
  wf J -> dims J = ds' -> (forall idx, inb ds' idx -> inb (dims a) (h idx) /\ elem J idx = Some (pos (dims a) (h idx) + 1)) ->
  exists I, takeDropSelection istake L x a = Ok I /\ is_array ds' (fun idx => Some (pos (dims a) (h idx))) I.
Proof.
  intros Hw E WJ DJ VJ. exists (mkArr (dims J) (map (fun i => i - 1) (elems J))). unfold takeDropSelection. rewrite E. cbn [obind selarr].
  assert (HE : existsb (fun i => i - 1 <? 0) (elems J) = false).
  { apply Bool.not_true_is_false. intros H. apply existsb_exists in H as (p & Hp & Hl). apply In_znth in Hp as [j Hj]. pose proof (znth_some_range _ _ _ Hj) as Hr.
    destruct WJ as (J1 & J2 & J3). rewrite J3 in Hr. destruct (ic_indexes_spec (dims J) j J2 Hr) as (idx & _ & Hi & Hq). rewrite DJ in *. destruct (VJ idx Hi) as [Hb Hv].
    unfold elem in Hv. rewrite DJ, Hq, Hj in Hv. injection Hv as ->. pose proof (pos_range _ _ Hb). lia. }
  rewrite HE. split; [reflexivity|]. destruct WJ as (J1 & J2 & J3). split; [split; [exact J1|]; split; [exact J2|]; cbn; rewrite zlen_map; exact J3|]. split; [exact DJ|].
  intros idx Hi. destruct (VJ idx Hi) as [_ Hv]. unfold elem in *. cbn [dims elems]. rewrite znth_map, Hv. cbn. f_equal. lia.
Qed.
Lemma shifted_inj ds : forall cs i1 i2, zlen ds = zlen cs -> zlen i1 = zlen ds -> zlen i2 = zlen ds -> shifted ds cs i1 = shifted ds cs i2 -> i1 = i2.
Proof.
  induction ds as [|d ds IH]; intros cs i1 i2 L1 L2 L3 E.
  - destruct i1, i2; try reflexivity; unfold zlen in *; cbn in *; lia.
  - destruct cs as [|c cs]; [unfold zlen in L1; cbn in L1; lia|]. destruct i1 as [|x i1]; [unfold zlen in L2; cbn in L2; lia|]. destruct i2 as [|y i2]; [unfold zlen in L3; cbn in L3; lia|].
    rewrite !zlen_cons in *. cbn [shifted] in E. injection E as E1 E2. f_equal; [lia|]. apply (IH cs); try lia. exact E2.
Qed.
Lemma skipped_inj : forall cs i1 i2, zlen i1 = zlen cs -> zlen i2 = zlen cs -> skipped cs i1 = skipped cs i2 -> i1 = i2.
Proof.
  induction cs as [|c cs IH]; intros i1 i2 L2 L3 E.
  - destruct i1, i2; try reflexivity; unfold zlen in *; cbn in *; lia.
  - destruct i1 as [|x i1]; [unfold zlen in L2; cbn in L2; lia|]. destruct i2 as [|y i2]; [unfold zlen in L3; cbn in L3; lia|].
    rewrite !zlen_cons in *. cbn [skipped] in E. injection E as E1 E2. f_equal; [lia|]. apply IH; try lia. exact E2.
Qed.
Lemma zlen_remaining : forall ds cs, zlen ds = zlen cs -> zlen (remaining ds cs) = zlen ds.
Proof.
  induction ds as [|d ds IH]; intros [|c cs] L; try reflexivity; [unfold zlen in L; cbn in L; lia|]. rewrite !zlen_cons in L. cbn [remaining]. rewrite !zlen_cons. rewrite IH; lia.
Qed.
Lemma shifted_in : forall ds cs idx, Forall2 (fun d c => Z.abs c <= d) ds cs -> inb (map Z.abs cs) idx -> inb ds (shifted ds cs idx).
Proof.
  intros ds cs idx H. revert idx. induction H as [|d c ds cs Hd _ IH]; intros idx Hi; unfold inb in *; cbn in Hi; inversion Hi as [|d' i l idx' H0 H1]; subst; [constructor|].
  cbn [shifted]. constructor; [unfold start; destruct (c <? 0) eqn:E; lia|apply IH, H1].
Qed.
Section C77T.
  Context {S A : Type} (k : akind A).
  Theorem C77_take (a X : arr A) l x0 xo cs (s : S) : wf a -> wf X -> l <> [] -> zlen l <= zlen (dims a) ->
    NoDup x0 -> Forall (fun i => 0 <= i < zlen (dims a)) x0 -> (xo = Some x0 \/ (xo = None /\ x0 = [])) ->
    counts_for (x0 ++ missing_axes (zlen (dims a)) x0) l (fun i => match znth (dims a) i with Some d => d | None => 0 end) cs ->
    Forall2 (fun d c => Z.abs c <= d) (dims a) cs -> dims X = map Z.abs cs ->
    let asg := assignScalar k None (takeDropSelection true (Arr (vec l)) xo) (Arr X) a in
    exists b, fst asg s = (Ok tt, s) /\ snd asg s = b /\ wf b /\ dims b = dims a /\
      (forall idx v, inb (map Z.abs cs) idx -> elem X idx = Some v -> exists y, elem b (shifted (dims a) cs idx) = Some y /\ stored k v y) /\
      (forall c, inb (dims a) c -> (forall idx, inb (map Z.abs cs) idx -> shifted (dims a) cs idx <> c) -> elem b c = elem a c).
  Proof.
    intros Hw HX Hl Hll Hnd Hf Hx Hcs Habs HdX asg. destruct (wf_positions1 a Hw) as [Wp Ep]. set (P := mkArr (dims a) _) in *.
    destruct (C10_take Z 0 0 l P x0 xo cs Wp Hl Hll Hnd Hf Hx Hcs) as (J & EJ & WJ & DJ & VJ).
    destruct (tds_ok true a (Arr (vec l)) xo (map Z.abs cs) (shifted (dims a) cs) J Hw EJ WJ DJ) as (I & EI & HI).
    { intros idx Hi. pose proof (shifted_in _ _ _ Habs Hi) as Hs. split; [exact Hs|]. rewrite (proj1 (VJ idx Hi)); [apply Ep, Hs|exact Hs]. }
    assert (Lc : zlen (dims a) = zlen cs) by (apply (Forall2_zlen _ _ _ Habs)).
    apply (sel_assign k _ a (map Z.abs cs) (shifted (dims a) cs) I X s Hw HX HdX EI); [intros idx Hi; apply shifted_in; assumption| |exact HI].
    intros i1 i2 H1 H2. apply inb_zlen in H1. apply inb_zlen in H2. rewrite zlen_map in *. apply shifted_inj; lia.
  Qed.
  Theorem C77_drop (a X : arr A) l x0 xo cs (s : S) : wf a -> wf X -> l <> [] -> zlen l <= zlen (dims a) ->
    NoDup x0 -> Forall (fun i => 0 <= i < zlen (dims a)) x0 -> (xo = Some x0 \/ (xo = None /\ x0 = [])) ->
    counts_for (x0 ++ missing_axes (zlen (dims a)) x0) l (fun _ => 0) cs -> Forall (fun c => - 2 ^ 63 < c < 2 ^ 63) cs -> dims X = remaining (dims a) cs ->
    let asg := assignScalar k None (takeDropSelection false (Arr (vec l)) xo) (Arr X) a in
    exists b, fst asg s = (Ok tt, s) /\ snd asg s = b /\ wf b /\ dims b = dims a /\
      (forall idx v, inb (remaining (dims a) cs) idx -> elem X idx = Some v -> exists y, elem b (skipped cs idx) = Some y /\ stored k v y) /\
      (forall c, inb (dims a) c -> (forall idx, inb (remaining (dims a) cs) idx -> skipped cs idx <> c) -> elem b c = elem a c).
  Proof.
    intros Hw HX Hl Hll Hnd Hf Hx Hcs HW HdX asg. destruct (wf_positions1 a Hw) as [Wp Ep]. set (P := mkArr (dims a) _) in *.
    destruct (C11_drop Z 0 0 l P x0 xo cs Wp Hl Hll Hnd Hf Hx Hcs HW) as (J & EJ & WJ & DJ & VJ). cbn [dims P] in DJ, VJ.
    destruct (tds_ok false a (Arr (vec l)) xo (remaining (dims a) cs) (skipped cs) J Hw EJ WJ DJ) as (I & EI & HI).
    { intros idx Hi. destruct (VJ idx Hi) as [Hs Hv]. split; [exact Hs|]. rewrite Hv. apply Ep, Hs. }
    assert (Lc : zlen cs = zlen (dims a)).
    { destruct Hcs as [-> _]. destruct (complete_axis_ok (zlen (dims a)) x0 (zlen_nonneg _) Hnd Hf) as [_ (_ & -> & _)]. reflexivity. }
    apply (sel_assign k _ a _ (skipped cs) I X s Hw HX HdX EI); [intros idx Hi; apply VJ; exact Hi| |exact HI].
    intros i1 i2 H1 H2. apply inb_zlen in H1. apply inb_zlen in H2. rewrite zlen_remaining in * by lia. apply skipped_inj; lia.
  Qed.
  Theorem C77_overtake (a : arr A) X l x0 xo cs idx (s : S) : wf a -> l <> [] -> zlen l <= zlen (dims a) ->
    NoDup x0 -> Forall (fun i => 0 <= i < zlen (dims a)) x0 -> (xo = Some x0 \/ (xo = None /\ x0 = [])) ->
    counts_for (x0 ++ missing_axes (zlen (dims a)) x0) l (fun i => match znth (dims a) i with Some d => d | None => 0 end) cs ->
    inb (map Z.abs cs) idx -> ~ inb (dims a) (shifted (dims a) cs idx) ->
    let asg := assignScalar k None (takeDropSelection true (Arr (vec l)) xo) X a in
    fst asg s = (Err, s) /\ snd asg s = a.
  Proof.
    intros Hw Hl Hll Hnd Hf Hx Hcs Hi Hn asg. destruct (wf_positions1 a Hw) as [Wp Ep]. set (P := mkArr (dims a) _) in *.
    destruct (C10_take Z 0 0 l P x0 xo cs Wp Hl Hll Hnd Hf Hx Hcs) as (J & EJ & WJ & DJ & VJ).
    assert (EI : takeDropSelection true (Arr (vec l)) xo a = Err).
    { unfold takeDropSelection. fold P. unfold take in EJ. rewrite EJ. cbn [obind selarr]. replace (existsb _ _) with true; [reflexivity|]. symmetry. apply existsb_exists.
      exists 0. split; [|reflexivity]. pose proof (proj2 (VJ idx Hi) Hn) as Hv. apply (znth_In _ _ _ Hv). }
    subst asg. unfold assignScalar. cbn [fst snd]. unfold ebind, elift. rewrite EI. split; reflexivity.
  Qed.
  (* (,A)←X *)
  Theorem C77_ravel (a : arr A) l (s : S) : wf a -> zlen l = zlen (elems a) ->
    let asg := assignScalar k None ravelSelection (Arr (vec l)) a in
    exists b, fst asg s = (Ok tt, s) /\ snd asg s = b /\ wf b /\ dims b = dims a /\
      forall i v, znth l i = Some v -> exists y, znth (elems b) i = Some y /\ stored k v y.
  Proof.
    intros Hw Hl asg. pose proof Hw as (W1 & W2 & W3). pose proof (size_nonneg _ W2) as Hs.
    destruct (asgn_distinct k ravelSelection a [zlen (elems a)] (zseq (zlen (elems a))) (Arr (vec l)) s Hw eq_refl) as (b & l' & E1 & E2 & B & Hl' & HP & V1 & V2).
    { right. cbn [shapeOf vec dims]. rewrite Hl. split; [reflexivity|]. unfold sizeOf. cbn [elemsOf vec elems]. rewrite zlen_zseq. lia. }
    { apply NoDup_zseq. }
    { apply Forall_forall. intros p Hp. apply In_zseq in Hp. lia. }
    exists b. split; [exact E1|]. split; [exact E2|]. split; [apply (elem_upd_wf a); assumption|]. destruct B as [B1 B2]. split; [exact B1|].
    intros i v Hv. pose proof (znth_some_range _ _ _ Hv) as Hr. apply (V1 i); [apply znth_zseq; lia|].
    assert (G : znth l' (pos [zlen l] [i]) = Some v).
    { apply (pairs_value (zseq (zlen (elems a))) (Arr (vec l))); [exact HP|rewrite Hl', zlen_zseq; cbn; lia|constructor; [lia|constructor]| |rewrite zlen_zseq; cbn; lia].
      unfold value_for. cbn [elemsOf vec elems]. destruct (Z.eq_dec (zlen l) 1) as [E0|E0]; [left|right; split; [exact E0|]; rewrite pos_vec; exact Hv].
      destruct l as [|x0 [|x1 t]]; [discriminate| |rewrite !zlen_cons in E0; pose proof (zlen_nonneg t); lia].
      change (zlen [x0]) with 1 in Hr. replace i with 0 in Hv by lia. unfold znth in Hv. cbn in Hv. congruence. }
    rewrite pos_vec in G. exact G.
  Qed.
End C77T.
Print Assumptions C77_take.
Print Assumptions C77_ravel.

(* ------------------------------------------------------------------ C78 *)
(* a plain indexed assignment succeeds, or fails without changing the variable *)
Theorem C78_atomic {S A} (k : akind A) o spec (a : arr A) X (s : S) : wf a -> value_ok X -> spec <> [] ->
  let asg := assignScalar k None (indexSelection o spec) X a in
  fst asg s = (Ok tt, s) \/ (fst asg s = (Err, s) /\ snd asg s = a).
Proof.
  intros Hw Hv Hn asg. pose proof Hw as (W1 & W2 & W3).
  assert (D : (exists sel, selects o spec (dims a) sel) \/ forall sel, ~ selects o spec (dims a) sel).
  { destruct (spec2ints_go o spec (dims a)) as [sel| |] eqn:E; [left; exists sel; apply spec2ints_go_inv; assumption| |]; right; intros sel H; apply spec2ints_go_ok in H; congruence. }
  destruct D as [[sel Hs]|Hs]; [|right; apply (C19_bad_index k None o spec a X s Hw Hn Hs)].
  assert (D : fits_selection X (map zlen sel) \/ ~ fits_selection X (map zlen sel)).
  { unfold fits_selection. destruct (list_eq_dec Z.eq_dec (filter (fun d => negb (d =? 1)) (shapeOf X)) (filter (fun d => negb (d =? 1)) (map zlen sel))); [left; right; assumption|].
    destruct (elemsOf X) as [|v [|w l]]; [right; intros [[v Hx]|Hx]; [discriminate|contradiction]|left; left; eauto|right; intros [[u Hx]|Hx]; [discriminate|contradiction]]. }
  destruct D as [Hf|Hf]; [|right; apply (C19_bad_value k None o spec a sel X s Hw Hs Hf)].
  left. destruct (C19_assign k o spec a sel X s Hw Hv Hs Hf) as (b & E & _). exact E.
Qed.
(* a modified assignment whose function fails on a later element has already
   changed the earlier ones: (1 2 3)[1 2]f←10 with f failing on 2 *)
Theorem C78_modified_not_atomic :
  let f : option (Z -> Z -> eff unit Z) := Some (fun x v => if x =? 2 then efail else eret (x + v)) in
  let asg := assignScalar (mkKind false Some) f (indexSelection 1 [AxInts [1; 2]]) (Scal 10) (vec [1; 2; 3]) in
  fst asg tt = (Err, tt) /\ snd asg tt = vec [11; 2; 3].
Proof. split; reflexivity. Qed.
Print Assumptions C78_atomic.

Example C17_example : index 1 [AxInts [2; 1; 2]; AxAll] (mkArr [2; 3] [1; 2; 3; 4; 5; 6]) = Ok (Arr (mkArr [3; 3] [4; 5; 6; 1; 2; 3; 4; 5; 6])) /\
  selects 1 [AxInts [2; 1; 2]; AxAll] [2; 3] [[1; 0; 1]; [0; 1; 2]] /\
  index 1 [AxInts [2]; AxInts [3; 1]] (mkArr [2; 3] [1; 2; 3; 4; 5; 6]) = Ok (Arr (vec [6; 4])) /\
  index 1 [AxInts [2]; AxInts [3]] (mkArr [2; 3] [1; 2; 3; 4; 5; 6]) = Ok (Scal 6) /\
  index 1 [AxInts [0]; AxAll] (mkArr [2; 3] [1; 2; 3; 4; 5; 6]) = Err.
Proof. repeat split; repeat constructor; lia. Qed.
Example C19_example :
  let k := mkKind false (fun v => if v <? 100 then Some v else None) in
  snd (assignScalar k None (@indexSelection Z 1 [AxInts [2; 2]; AxInts [1; 3]]) (Arr (mkArr [2; 2] [7; 8; 9; 100])) (mkArr [2; 3] [1; 2; 3; 4; 5; 6])) tt = mkArr [2; 3] [1; 2; 3; 9; 5; 100] /\
  snd (assignScalar k (Some (fun x v => eret (x * v))) (@indexSelection Z 1 [AxAll; AxInts [2]]) (Scal 10) (mkArr [2; 3] [1; 2; 3; 4; 5; 6])) tt = mkArr [2; 3] [1; 20; 3; 4; 50; 6] /\
  fits_selection (Arr (mkArr [2; 2] [7; 8; 9; 100])) [2; 2].
Proof. repeat split. right. reflexivity. Qed.
Example C77_example :
  let k := mkKind false (fun v : Z => Some v) in
  snd (assignScalar k None (selection (fun v => reverse v (-1))) (Arr (vec [7; 8; 9])) (vec [1; 2; 3])) tt = vec [9; 8; 7] /\
  snd (assignScalar k None (takeDropSelection true (Arr (vec [-2])) None) (Arr (vec [8; 9])) (vec [1; 2; 3])) tt = vec [1; 8; 9] /\
  snd (assignScalar k None (func_selection (fun _ x => x >? 1) 1) (Scal 0) (vec [1; 2; 3])) tt = vec [1; 0; 0].
Proof. repeat split; reflexivity. Qed.
