(* Prop_Csv.v -- C143: csv output can be read back; C144: the formats of table
   cells; C145: ⎕PP. *)
From Verif Require Import Base M_Array S_Array P_Array M_Structural M_Csv S_Csv.
Open Scope Z_scope.

(* ------------------------------------------------------------------ C143 *)
Lemma read_plain rec : forall f fld st r, st = FieldStart \/ st = Plain -> existsb (fun c => (c =? 44) || (c =? 34) || (c =? 13) || (c =? 10)) f = false ->
  forall c, c = 44 \/ c = 10 -> readCsv st fld rec (f ++ c :: r) = if c =? 44 then readCsv FieldStart [] (rec ++ [fld ++ f]) r else option_map (cons (rec ++ [fld ++ f])) (readCsv FieldStart [] [] r).
Proof.
  induction f as [|x f IH]; intros fld st r Hst HF c Hc.
  - rewrite app_nil_r. destruct Hst as [-> | ->]; destruct Hc as [-> | ->]; reflexivity.
  - cbn [existsb] in HF. apply Bool.orb_false_iff in HF as [Hx HF]. apply Bool.orb_false_iff in Hx as [Hx H10]. apply Bool.orb_false_iff in Hx as [Hx H13]. apply Bool.orb_false_iff in Hx as [H44 H34].
    cbn [app readCsv]. rewrite H44, H34, H13, H10. replace (fld ++ x :: f) with ((fld ++ [x]) ++ f) by (rewrite <- app_assoc; reflexivity).
    destruct Hst as [-> | ->]; apply IH; auto.
Qed.
Lemma read_quoted rec : forall f fld r c, c = 44 \/ c = 10 ->
  readCsv Quoted fld rec (doubled f ++ 34 :: c :: r) = if c =? 44 then readCsv FieldStart [] (rec ++ [fld ++ f]) r else option_map (cons (rec ++ [fld ++ f])) (readCsv FieldStart [] [] r).
Proof.
  induction f as [|x f IH]; intros fld r c Hc.
  - rewrite app_nil_r. destruct Hc as [-> | ->]; reflexivity.
  - cbn [doubled]. replace (fld ++ x :: f) with ((fld ++ [x]) ++ f) by (rewrite <- app_assoc; reflexivity). destruct (Z.eqb_spec x 34) as [->|Hn].
    + cbn [app]. change (readCsv Quoted fld rec (34 :: 34 :: doubled f ++ 34 :: c :: r)) with (readCsv Quoted (fld ++ [34]) rec (doubled f ++ 34 :: c :: r)). apply IH, Hc.
    + cbn [app readCsv]. replace (x =? 34) with false by lia. apply IH, Hc.
Qed.
Section C143.
  Context (isSpace : Z -> bool).
  Lemma read_field f rec r c : c = 44 \/ c = 10 -> readCsv FieldStart [] rec (csvField isSpace f ++ c :: r) = if c =? 44 then readCsv FieldStart [] (rec ++ [f]) r else option_map (cons (rec ++ [f])) (readCsv FieldStart [] [] r).
  Proof.
    intros Hc. unfold csvField. destruct (needsQuotes isSpace f) eqn:E.
    - cbn [app readCsv]. change (34 =? 44) with false. change (34 =? 10) with false. change (34 =? 34) with true. cbv iota.
      rewrite <- app_assoc. cbn [app]. apply (read_quoted rec f [] r c Hc).
    - apply (read_plain rec f [] FieldStart r (or_introl eq_refl)); [|exact Hc]. destruct f as [|x f]; [reflexivity|]. unfold needsQuotes in E. apply Bool.orb_false_iff in E as [E _]. apply Bool.orb_false_iff in E as [_ E]. exact E.
  Qed.
  Lemma read_row : forall fs rec r, fs <> [] -> readCsv FieldStart [] rec (csvFields isSpace fs ++ 10 :: r) = option_map (cons (rec ++ fs)) (readCsv FieldStart [] [] r).
  Proof.
    induction fs as [|f fs IH]; intros rec r Hn; [contradiction|]. destruct fs as [|g fs].
    - cbn [csvFields]. rewrite read_field by auto. reflexivity.
    - change (csvFields isSpace (f :: g :: fs)) with (csvField isSpace f ++ 44 :: csvFields isSpace (g :: fs)). rewrite <- app_assoc. cbn [app]. rewrite read_field by auto. change (44 =? 44) with true. cbv iota.
      rewrite IH by discriminate. rewrite <- app_assoc. reflexivity.
  Qed.
  (* whatever the fields contain, a reader gets the same records back *)
  Theorem C143_read_back (rows : list (list (list Z))) : Forall (fun fs => fs <> []) rows -> csv_records (flat_map (csvWrite isSpace) rows) = Some rows.
  Proof.
    unfold csv_records. induction 1 as [|fs rows Hn _ IH]; [reflexivity|]. cbn [flat_map]. unfold csvWrite. rewrite <- app_assoc. cbn [app]. rewrite read_row by exact Hn. fold (csvWrite isSpace). rewrite IH. reflexivity.
  Qed.
  Lemma csvRow_ok {A} (str : A -> list Z) l : forall n idx, 0 <= idx -> idx + Z.of_nat n <= zlen l ->
    exists xs, csvRow str l n idx = Ok (map str xs) /\ zlen xs = Z.of_nat n /\ forall i, 0 <= i < Z.of_nat n -> znth xs i = znth l (idx + i).
  Proof.
    induction n as [|n IH]; intros idx H0 HL; [exists []; split; [reflexivity|]; split; [reflexivity|]; intros; lia|].
    destruct (znth_in_range l idx) as [x Hx]; [lia|]. destruct (IH (idx + 1)) as (xs & E & HZ & HV); [lia|lia|]. exists (x :: xs). cbn [csvRow]. rewrite (proj2 (zat_ok _ _ _) Hx). cbn [obind]. rewrite E. cbn [obind]. split; [reflexivity|].
    split; [rewrite zlen_cons; lia|]. intros i Hi. destruct (Z.eq_dec i 0) as [->|]; [rewrite znth_cons_0, Z.add_0_r; congruence|]. rewrite znth_cons_pos by lia. rewrite HV by lia. f_equal. lia.
  Qed.
  (* "csv"⍕A for a matrix *)
  Theorem C143_matrix {A} (str : A -> list Z) (a : arr A) n c : wf a -> dims a = [n; c] -> 0 < c ->
    exists t rows, formatCsv isSpace str a = Ok t /\ csv_records t = Some rows /\ zlen rows = n /\
      forall i row, znth rows i = Some row -> zlen row = c /\ forall j, 0 <= j < c -> znth row j = option_map str (elem a [i; j]).
  Proof.
    intros (W1 & W2 & W3) Hd Hc. assert (Hn : 0 <= n) by (rewrite Hd in W2; inversion W2; assumption). rewrite Hd in W3. cbn in W3.
    assert (G : forall m idx, 0 <= idx -> idx + Z.of_nat m * c <= zlen (elems a) -> exists rows, csvRows isSpace str (elems a) (Z.to_nat c) m idx = Ok (flat_map (csvWrite isSpace) rows) /\ zlen rows = Z.of_nat m /\ Forall (fun fs => fs <> []) rows /\
      forall i row, znth rows i = Some row -> zlen row = c /\ forall j, 0 <= j < c -> znth row j = option_map str (znth (elems a) (idx + i * c + j))).
    { induction m as [|m IH]; intros idx H0 HL.
      - exists []. split; [reflexivity|]. split; [reflexivity|]. split; [constructor|]. intros i row H. apply znth_In in H. contradiction.
      - destruct (csvRow_ok str (elems a) (Z.to_nat c) idx H0) as (xs & E & HZ & HV); [nia|]. rewrite Z2Nat.id in * by lia. destruct (IH (idx + c)) as (rows & ER & HR & HF & HVR); [lia|nia|].
        exists (map str xs :: rows). cbn [csvRows]. rewrite E. cbn [obind]. rewrite Z2Nat.id by lia. rewrite ER. cbn [obind]. split; [reflexivity|]. split; [rewrite zlen_cons; lia|].
        split; [constructor; [destruct xs; [rewrite zlen_nil in HZ; lia|discriminate]|exact HF]|].
        intros i row Hi. pose proof (znth_some_range _ _ _ Hi) as Hr. destruct (Z.eq_dec i 0) as [->|].
        + rewrite znth_cons_0 in Hi. injection Hi as <-. split; [rewrite zlen_map; exact HZ|]. intros j Hj. rewrite znth_map, HV by lia. do 2 f_equal. lia.
        + rewrite znth_cons_pos in Hi by lia. destruct (HVR _ _ Hi) as [Q1 Q2]. split; [exact Q1|]. intros j Hj. rewrite Q2 by exact Hj. do 2 f_equal. nia. }
    unfold formatCsv. rewrite Hd. destruct (Z.eq_dec n 0) as [->|Hn0].
    - exists [], []. cbn [Z.eqb orb]. split; [reflexivity|]. split; [reflexivity|]. split; [reflexivity|]. intros i row H. apply znth_In in H. contradiction.
    - replace (n =? 0) with false by lia. replace (c =? 0) with false by lia. cbn [orb]. destruct (G (Z.to_nat n) 0) as (rows & E & HR & HF & HV); [lia|nia|]. exists (flat_map (csvWrite isSpace) rows), rows.
      split; [exact E|]. split; [apply C143_read_back, HF|]. split; [lia|]. intros i row Hi. destruct (HV i row Hi) as [Q1 Q2]. split; [exact Q1|]. intros j Hj. rewrite Q2 by exact Hj. unfold elem. rewrite Hd. cbn [pos size]. do 2 f_equal. lia.
  Qed.
  Theorem C143_not_a_matrix {A} (str : A -> list Z) (a : arr A) : zlen (dims a) <> 2 -> formatCsv isSpace str a = Err.
  Proof.
    unfold formatCsv. destruct (dims a) as [|x [|y [|z l]]]; try reflexivity. intros H. exfalso. apply H. reflexivity.
  Qed.
End C143.
Print Assumptions C143_read_back.
Print Assumptions C143_matrix.
Example C143_example :
  let sp := fun c => c =? 32 in
  formatCsv sp (fun x => x) (mkArr [2; 2] [[97; 44; 98]; [34]; []; [10; 99]]) = Ok [34; 97; 44; 98; 34; 44; 34; 34; 34; 34; 10; 44; 34; 10; 99; 34; 10] /\
  csv_records [34; 97; 44; 98; 34; 44; 34; 34; 34; 34; 10; 44; 34; 10; 99; 34; 10] = Some [[[97; 44; 98]; [34]]; [[]; [10; 99]]].
Proof. split; reflexivity. Qed.

(* ------------------------------------------------------------------ C144 *)
Section C144.
  Context (isSpace : Z -> bool) {T V K : Type} (teq : forall a b : T, {a = b} + {a <> b}) (typ : V -> T) (str : @fmt T -> V -> list Z) (kstr : @fmt T -> K -> list Z) (hashable : K -> bool) (keq : K -> K -> bool).
  (* a value is printed as the precision and the format of its own type say *)
  Definition own_format : Prop := forall f g v, PP f = PP g -> Fmt f (typ v) = Fmt g (typ v) -> str f v = str g v.
  (* the format string for column k in the object L *)
  Definition format_for (L : option (list (K * option (list Z)))) (k : K) (o : option (list Z)) : Prop :=
    match L with
    | None => o = None
    | Some l => (exists s k', In (k', Some s) l /\ keq k' k = true /\ o = Some s /\ s <> []) \/ ((forall s k', In (k', Some s) l -> keq k' k = true -> s = []) /\ o = None)
    end.
  Definition usable (L : option (list (K * option (list Z)))) (cols : list (K * list (@cell T V))) : Prop :=
    match L with
    | None => True
    | Some l => Forall (fun e => snd e <> None -> hashable (fst e) = true) l /\ Forall (fun c => hashable (fst c) = true) cols /\
        (* the keys of an object are different *)
        (forall k1 k2 s1 s2 k, In (k1, Some s1) l -> In (k2, Some s2) l -> keq k1 k = true -> keq k2 k = true -> s1 = s2)
    end.
  Lemma colfmt_ok : forall l m, Forall (fun e => snd e <> None -> hashable (fst e) = true) l ->
    exists m', colfmt hashable l m = Ok m' /\ forall k s, In (k, s) m' <-> In (k, s) m \/ In (k, Some s) l.
  Proof.
    induction l as [|[k [s|]] l IH]; intros m HF; cbn [colfmt].
    - exists m. split; [reflexivity|]. intros; cbn. tauto.
    - inversion HF as [|e l0 H1 H2]; subst. cbn in H1. rewrite H1 by discriminate. destruct (IH ((k, s) :: m) H2) as (m' & E & HV). exists m'. split; [exact E|]. intros k' s'. rewrite HV. cbn [In].
      split; [intros [[Q|Q]|Q]; [injection Q as <- <-; auto|auto|auto]|intros [Q|[Q|Q]]; [auto|injection Q as <- <-; auto|auto]].
    - inversion HF as [|e l0 H1 H2]; subst. destruct (IH m H2) as (m' & E & HV). exists m'. split; [exact E|]. intros k' s'. rewrite HV. cbn [In]. split; [intros [Q|Q]; auto|intros [Q|[Q|Q]]; [auto|discriminate|auto]].
  Qed.
  Lemma mapGet_some m k s : mapGet keq m k = Some s -> exists k', In (k', s) m /\ keq k' k = true.
  Proof. induction m as [|[k' s'] m IH]; cbn [mapGet]; [discriminate|]. destruct (keq k' k) eqn:E; [intros [= <-]; exists k'; split; [left; reflexivity|exact E]|]. intros H. destruct (IH H) as (q & Hq & E'). exists q. split; [right; exact Hq|exact E']. Qed.
  Lemma mapGet_none m k : mapGet keq m k = None -> forall k' s, In (k', s) m -> keq k' k = false.
  Proof. induction m as [|[k' s'] m IH]; cbn [mapGet]; [contradiction|]. destruct (keq k' k) eqn:E; [discriminate|]. intros H q s [Q|Q]; [injection Q as <- <-; exact E|apply (IH H q s Q)]. Qed.
  Definition cols_one (cols : list (K * list (@cell T V))) : Prop := Forall (fun c => Forall (fun x => exists v, x = One v) (snd c)) cols.
  Lemma writeRow_ok (cf : option (list (K * list Z))) L af : own_format -> (forall k, (cf <> None -> hashable k = true) -> exists s, custom hashable keq cf k = Ok s /\ format_for L k (match s with [] => None | _ => Some s end)) ->
    forall cols n f, PP f = PP af -> cols_one cols -> Forall (fun c => 0 <= n < zlen (snd c)) cols -> (cf <> None -> Forall (fun c => hashable (fst c) = true) cols) ->
    exists r f', writeRow teq typ str hashable keq cf cols n f = Ok (r, f') /\ PP f' = PP af /\
      Forall2 (fun c x => exists v o, znth (snd c) n = Some (One v) /\ format_for L (fst c) o /\ x = str (mkFmt (PP af) (fun t => if teq t (typ v) then o else Fmt af t)) v) cols r.
  Proof.
    intros Hown Hcf. induction cols as [|[k col] cols IH]; intros n f Hf H1 Hn Hh; cbn [writeRow].
    - exists [], f. split; [reflexivity|]. split; [exact Hf|]. constructor.
    - inversion H1 as [|c0 l0 A1 A2]; subst. inversion Hn as [|c1 l1 B1 B2]; subst. cbn [snd fst] in *. destruct (Hcf k) as (s & Es & Hs); [intros Q; specialize (Hh Q); inversion Hh; assumption|].
      rewrite Es. cbn [obind]. destruct (znth_in_range col n B1) as [c Hc]. rewrite (proj2 (zat_ok _ _ _) Hc). cbn [obind]. rewrite Forall_forall in A1. destruct (A1 c (znth_In _ _ _ Hc)) as [v ->].
      set (o := match s with [] => None | _ => Some s end) in *. unfold writeCell. cbn [cellType]. fold o.
      destruct (IH n (put teq f (typ v) o)) as (r & f' & E & Hf' & HF); [exact Hf|exact A2|exact B2|intros Q; specialize (Hh Q); inversion Hh; assumption|].
      rewrite E. cbn [obind fst snd]. eexists _, f'. split; [reflexivity|]. split; [exact Hf'|]. constructor; [|exact HF].
      exists v, o. cbn [fst snd]. split; [exact Hc|]. split; [exact Hs|]. apply Hown; [exact Hf|]. cbn. destruct (teq (typ v) (typ v)); [reflexivity|contradiction].
  Qed.
  (* the csv text of a table: a line with the keys, then the rows; the cell of
     column k is printed with the format that L has for k, and without a format if
     L has none *)
  Theorem C144_csv (af : fmt) L cols rows : own_format -> cols <> [] -> usable L cols -> cols_one cols -> Forall (fun c => zlen (snd c) = Z.of_nat rows) cols ->
    exists t body, Csv isSpace teq typ str kstr hashable keq af L cols rows = Ok t /\
      csv_records t = Some (map (fun c => kstr af (fst c)) cols :: body) /\ zlen body = Z.of_nat rows /\
      forall n row, znth body n = Some row ->
        Forall2 (fun c x => exists v o, znth (snd c) n = Some (One v) /\ format_for L (fst c) o /\ x = str (mkFmt (PP af) (fun t => if teq t (typ v) then o else Fmt af t)) v) cols row.
  Proof.
    intros Hown Hne HU H1 HZ.
    assert (HC : exists cf, match L with None => Ok None | Some l => let* m := colfmt hashable l [] in Ok (Some m) end = Ok cf /\ (cf <> None -> Forall (fun c => hashable (fst c) = true) cols) /\
      forall k, (cf <> None -> hashable k = true) -> exists s, custom hashable keq cf k = Ok s /\ format_for L k (match s with [] => None | _ => Some s end)).
    { destruct L as [l|].
      - destruct HU as (U1 & U2 & U3). destruct (colfmt_ok l [] U1) as (m & E & HV). rewrite E. exists (Some m). split; [reflexivity|]. split; [intros _; exact U2|]. intros k Hk. cbn [custom]. rewrite Hk by discriminate.
        eexists. split; [reflexivity|]. cbn [format_for]. destruct (mapGet keq m k) as [s|] eqn:EG.
        + apply mapGet_some in EG as (k' & Hi & Hq). apply HV in Hi as [Hi|Hi]; [contradiction|]. destruct s as [|x s].
          * right. split; [|reflexivity]. intros s2 k2 H2 Q2. symmetry. apply (U3 k' k2 [] s2 k Hi H2 Hq Q2).
          * left. exists (x :: s), k'. repeat split; try assumption. discriminate.
        + right. split; [|reflexivity]. intros s k' Hi Hq. rewrite (mapGet_none m k EG k' s) in Hq; [discriminate|]. apply HV. right. exact Hi.
      - exists None. split; [reflexivity|]. split; [intros Q; contradiction|]. intros k _. exists []. split; reflexivity. }
    destruct HC as (cf & Ecf & Hh & Hcf).
    assert (G : forall m n f, 0 <= n -> n + Z.of_nat m <= Z.of_nat rows -> PP f = PP af -> exists body, writeRows teq typ str hashable keq cf cols m n f = Ok body /\ zlen body = Z.of_nat m /\ 
      forall i row, znth body i = Some row -> Forall2 (fun c x => exists v o, znth (snd c) (n + i) = Some (One v) /\ format_for L (fst c) o /\ x = str (mkFmt (PP af) (fun t => if teq t (typ v) then o else Fmt af t)) v) cols row).
    { induction m as [|m IH]; intros n f H0 HL Hf; cbn [writeRows].
      - exists []. split; [reflexivity|]. split; [reflexivity|]. intros i row H. apply znth_In in H. contradiction.
      - destruct (writeRow_ok cf L af Hown Hcf cols n f Hf H1) as (r & f' & E & Hf' & HF); [|exact Hh|].
        { eapply Forall_impl; [|exact HZ]. cbv beta. intros c Hc. lia. }
        rewrite E. cbn [obind fst snd]. destruct (IH (n + 1) f') as (body & EB & HB & HV); [lia|lia|exact Hf'|]. rewrite EB. cbn [obind]. exists (r :: body). split; [reflexivity|]. split; [rewrite zlen_cons; lia|].
        intros i row Hi. pose proof (znth_some_range _ _ _ Hi) as Hr. destruct (Z.eq_dec i 0) as [->|].
        + rewrite znth_cons_0 in Hi. injection Hi as <-. rewrite Z.add_0_r. exact HF.
        + rewrite znth_cons_pos in Hi by lia. specialize (HV _ _ Hi). replace (n + 1 + (i - 1)) with (n + i) in HV by lia. exact HV. }
    destruct (G rows 0 af) as (body & EB & HB & HV); [lia|lia|reflexivity|].
    assert (EW : write teq typ str kstr hashable keq af L cols rows = Ok (map (fun c => kstr af (fst c)) cols :: body)).
    { unfold write. destruct cols as [|c cols]; [contradiction|]. rewrite Ecf. cbn [obind]. rewrite EB. reflexivity. }
    exists (flat_map (csvWrite isSpace) (map (fun c => kstr af (fst c)) cols :: body)), body. unfold Csv. rewrite EW. cbn [obind]. split; [reflexivity|]. split; [|split; [exact HB|exact HV]].
    apply C143_read_back. constructor; [destruct cols; [contradiction|discriminate]|]. apply Forall_forall. intros row Hrow. apply In_znth in Hrow as [i Hi]. specialize (HV i row Hi). destruct HV; [contradiction|discriminate].
  Qed.
  (* an array or list as a key of L panics *)
  Theorem C144_key_panics (af : fmt) l k s cols rows : cols <> [] -> In (k, Some s) l -> hashable k = false -> Csv isSpace teq typ str kstr hashable keq af (Some l) cols rows = Panic.
  Proof.
    intros Hne Hin Hk. unfold Csv, write. destruct cols as [|c cols]; [contradiction|].
    assert (G : forall m, colfmt hashable l m = Panic); [|rewrite G; reflexivity].
    clear - Hin Hk. induction l as [|[k' [s'|]] l IH]; intros m; [contradiction| |]; cbn [colfmt].
    - destruct Hin as [Q|Hin]; [injection Q as -> ->; rewrite Hk; reflexivity|]. destruct (hashable k'); [apply IH, Hin|reflexivity].
    - destruct Hin as [Q|Hin]; [discriminate|]. apply IH, Hin.
  Qed.
End C144.
Print Assumptions C144_csv.
Print Assumptions C144_key_panics.
(* for the findings: two types of values, integers (printed as the format says:
   its text before the digit, or a dot) and arrays *)
Definition exStr (f : @fmt bool) (v : Z) : list Z := (match Fmt f true with Some s => s | None => [46] end) ++ [48 + v].
(* Finding: a format set with ⎕PP for the type is lost in tables *)
Theorem C144_global_format_ignored_refuted :
  let af := mkFmt 0 (fun t : bool => if t then Some [120] else None) in
  exStr af 5 = [120; 53] /\
  Csv (fun _ => false) Bool.bool_dec (fun _ : Z => true) exStr (fun _ k => k) (fun _ => true) (fun _ _ => false) af None [([97], [One 5])] 1 = Ok [97; 10; 46; 53; 10].
Proof. split; reflexivity. Qed.
(* Finding: the elements of an array in a cell are printed with the format of the
   column before *)
Theorem C144_nested_format_leaks_refuted :
  let af := mkFmt 0 (fun t : bool => None) in
  let L := Some [(1, Some [120])] in
  Csv (fun _ => false) Bool.bool_dec (fun _ : Z => true) exStr (fun _ k => [96 + k]) (fun _ => true) Z.eqb af L [(1, [One 5]); (2, [Many false [6; 7]])] 1
    = Ok [97; 44; 98; 10; 120; 53; 44; 120; 54; 32; 120; 55; 10] /\
  Csv (fun _ => false) Bool.bool_dec (fun _ : Z => true) exStr (fun _ k => [96 + k]) (fun _ => true) Z.eqb af L [(2, [Many false [6; 7]]); (1, [One 5])] 1
    = Ok [98; 44; 97; 10; 46; 54; 32; 46; 55; 44; 120; 53; 10].
Proof. split; reflexivity. Qed.
Example C144_example : own_format (fun _ : Z => true) exStr /\
  @usable bool Z Z (fun _ => true) Z.eqb (Some [(1, Some [120]); (3, None)]) [(1, [One 5; One 6]); (2, [One 7; One 8])] /\
  Csv (fun _ => false) Bool.bool_dec (fun _ : Z => true) exStr (fun _ k => [96 + k]) (fun _ => true) Z.eqb (mkFmt 0 (fun t : bool => None)) (Some [(1, Some [120]); (3, None)]) [(1, [One 5; One 6]); (2, [One 7; One 8])] 2
    = Ok [97; 44; 98; 10; 120; 53; 44; 46; 55; 10; 120; 54; 44; 46; 56; 10].
Proof.
  split; [intros f g v _ H; unfold exStr; cbv beta in H; rewrite H; reflexivity|]. split; [|reflexivity].
  split; [repeat constructor|]. split; [repeat constructor|]. intros k1 k2 s1 s2 k H1 H2 _ _. cbn in H1, H2. destruct H1 as [H1|[H1|[]]]; destruct H2 as [H2|[H2|[]]]; congruence.
Qed.

(* ------------------------------------------------------------------ C145 *)
Section C145.
  Context {T V : Type} (teq : forall a b : T, {a = b} + {a <> b}) (typ : V -> T).
  Notation set := (SetPP teq typ).
  Theorem C145_number i f : set (PNum (Some i)) f = (Ok tt, mkFmt i (Fmt f)).
  Proof. reflexivity. Qed.
  (* ⎕PP←⍬ restores the initial state after any history *)
  Theorem C145_reset (l : list (@ppval V)) f : let g := fold_left (fun g R => snd (set R g)) (l ++ [PEmpty]) f in PP g = 0 /\ forall t, Fmt g t = None.
  Proof. cbv zeta. rewrite fold_left_app. cbn. split; [reflexivity|]. intros t. reflexivity. Qed.
  Theorem C145_other (R : @ppval V) f : R = PNum None \/ R = POther -> set R f = (Err, f).
  Proof. intros [-> | ->]; reflexivity. Qed.
  (* a dict sets the format of the types of its keys, the last one for a type
     counts; no other format and not the precision *)
  Theorem C145_dict_partial l f : let g := snd (set (PObj l) f) in
    PP g = PP f /\ (forall t, (forall k s, In (k, Some s) l -> typ k <> t) -> Fmt g t = Fmt f t) /\
    (forall pre k s post, l = pre ++ (k, Some s) :: post -> (forall k' s', In (k', Some s') post -> typ k' <> typ k) -> Fmt g (typ k) = Some s).
  Proof.
    cbn [SetPP snd]. set (step := fun g e => _).
    assert (A1 : forall l g, PP (fold_left step l g) = PP g) by (induction l0 as [|[k [s|]] l0 IH]; intros g; [reflexivity| |]; cbn [fold_left]; rewrite IH; reflexivity).
    assert (A2 : forall l g t, (forall k s, In (k, Some s) l -> typ k <> t) -> Fmt (fold_left step l g) t = Fmt g t).
    { induction l0 as [|[k [s|]] l0 IH]; intros g t H; [reflexivity| |]; cbn [fold_left]; rewrite IH by (intros k' s' Hi; apply (H k' s'); right; exact Hi); [|reflexivity].
      cbn. destruct (teq t (typ k)) as [->|]; [|reflexivity]. exfalso. apply (H k s); [left; reflexivity|reflexivity]. }
    split; [apply A1|]. split; [apply A2|]. intros pre k s post -> H. rewrite fold_left_app. cbn [fold_left]. rewrite A2 by exact H. cbn. destruct (teq (typ k) (typ k)); [reflexivity|contradiction].
  Qed.
  (* Finding: and it always is an error *)
  Theorem C145_dict_error_refuted l f : fst (set (PObj l) f) = Err.
  Proof. reflexivity. Qed.
End C145.
Print Assumptions C145_reset.
Print Assumptions C145_dict_partial.
Example C145_example :
  let f := snd (SetPP Bool.bool_dec (fun v : Z => v =? 0) (PObj [(0, Some [1]); (1, None); (0, Some [2])]) (mkFmt 5 (fun _ => None))) in
  PP f = 5 /\ Fmt f true = Some [2] /\ Fmt f false = None.
Proof. repeat split; reflexivity. Qed.
