(* Prop_ChanText.v -- the property of channel text readers: C73. *)
From Coq Require Import List Bool Arith Lia.
From Verif Require Import Base M_ChanText.
Import ListNotations.
Open Scope list_scope.
Open Scope nat_scope.

(* ---------- specification ---------- *)
(* strings joined by a separator *)
Fixpoint joined {C} (nl : C) (ss : list (list C)) : list C :=
  match ss with [] => [] | [s] => s | s :: ss' => s ++ nl :: joined nl ss' end.
(* successive reads with buffers of the sizes ns *)
Fixpoint reads {C} (nl : C) (ns : list nat) (r : creader C) : list (got C) * creader C :=
  match ns with [] => ([], r) | n :: ns' => let (g, r1) := read nl n r in let (gs, r2) := reads nl ns' r1 in (g :: gs, r2) end.
Definition data {C} (gs : list (got C)) : list C := concat (map (fun g => match g with Got cs => cs | EOF => [] end) gs).

(* the text that a reader has still to deliver *)
Definition rest {C} (nl : C) (r : creader C) : list C :=
  rbuf r ++ (if rclosed r then [] else match rchan r with [] => [] | s :: ss => (if first r then [] else [nl]) ++ s ++ concat (map (cons nl) ss) end).
Lemma read_rest : forall C (nl : C) n r, first r = false -> 0 < n -> match read nl n r with
  | (Got cs, r') => first r' = false /\ cs <> [] /\ cs ++ rest nl r' = rest nl r
  | (EOF, r') => rest nl r = [] /\ first r' = false /\ rest nl r' = [] end.
Proof.
  intros C nl n [ch b fi cl] F N. cbn in F. subst fi. unfold read. cbn [rclosed rbuf rchan first].
  assert (R : forall b ch cl, (b = [] -> cl = true) -> match (let (g, b') := buf_read n b in (g, mkR ch b' false cl)) with
    | (Got cs, r') => first r' = false /\ cs <> [] /\ cs ++ rest nl r' = rest nl (mkR ch b false cl)
    | (EOF, r') => rest nl (mkR ch b false cl) = [] /\ first r' = false /\ rest nl r' = [] end).
  { intros b0 ch0 cl0 H. destruct b0 as [|c b0].
    - rewrite (H eq_refl). destruct n; [lia|]. cbn. auto.
    - destruct n as [|n]; [lia|]. cbn [buf_read firstn skipn]. split; [reflexivity|]. split; [discriminate|]. unfold rest. cbn [rbuf rclosed rchan first app]. f_equal. rewrite app_assoc, firstn_skipn. reflexivity. }
  destruct cl; [apply (R b ch true); auto|]. destruct (length b <? 1024) eqn:Q.
  - destruct ch as [|s ss].
    + specialize (R b [] true ltac:(auto)). cbn [rbuf rchan first rclosed]. destruct (buf_read n b) as [g b'] eqn:E. destruct g; exact R.
    + specialize (R (b ++ [nl] ++ s) ss false). cbn [rbuf rchan first rclosed]. destruct (buf_read n (b ++ [nl] ++ s)) as [g b'] eqn:E.
      assert (NE : b ++ [nl] ++ s = [] -> false = true) by (intros X; destruct b; discriminate). specialize (R NE).
      assert (EQ : rest nl (mkR ss (b ++ [nl] ++ s) false false) = rest nl (mkR (s :: ss) b false false)).
      { unfold rest. cbn [rbuf rclosed rchan first]. rewrite <- app_assoc. f_equal. cbn [app]. f_equal. f_equal. destruct ss; reflexivity. }
      rewrite EQ in R. exact R.
  - apply Nat.ltb_ge in Q. destruct b as [|c b]; [cbn in Q; lia|]. specialize (R (c :: b) ch false ltac:(discriminate)). cbn [rbuf rchan first rclosed]. destruct (buf_read n (c :: b)) as [g b'] eqn:E. exact R.
Qed.
Lemma reads_rest : forall C (nl : C) ns r, first r = false -> Forall (lt 0) ns -> data (fst (reads nl ns r)) ++ rest nl (snd (reads nl ns r)) = rest nl r /\
  forall i, nth_error (fst (reads nl ns r)) i = Some EOF -> data (firstn i (fst (reads nl ns r))) = rest nl r.
Proof.
  intros C nl ns. induction ns as [|n ns IH]; intros r F P.
  - split; [reflexivity|]. intros [|i] E; discriminate.
  - inversion P as [|? ? N P']; subst. pose proof (read_rest C nl n r F N) as R. cbn [reads]. destruct (read nl n r) as [[cs|] r1] eqn:E.
    + destruct R as (F1 & NE & R). destruct (IH r1 F1 P') as [A B]. destruct (reads nl ns r1) as [gs r2]. cbn [fst snd] in *. split.
      * unfold data in *. cbn [map concat]. rewrite <- app_assoc, A. exact R.
      * intros [|i] EI; [discriminate|]. cbn [nth_error] in EI. cbn [firstn]. unfold data in *. cbn [map concat]. rewrite (B i EI). exact R.
    + destruct R as (R0 & F1 & R1). destruct (IH r1 F1 P') as [A B]. destruct (reads nl ns r1) as [gs r2]. cbn [fst snd] in *. split.
      * unfold data in *. cbn [map concat app]. rewrite A, R1, R0. reflexivity.
      * intros [|i] EI; [rewrite R0; reflexivity|]. cbn [nth_error] in EI. cbn [firstn]. unfold data in *. cbn [map concat app]. rewrite (B i EI), R1, R0. reflexivity.
Qed.
Lemma lead_joined : forall C (nl : C) ss, ss <> [] -> concat (map (cons nl) ss) = nl :: joined nl ss.
Proof. induction ss as [|s [|s' ss] IH]; intros NE; [congruence|cbn; rewrite app_nil_r; reflexivity|]. cbn [map concat]. cbn [map concat] in IH. rewrite IH by discriminate. reflexivity. Qed.

(* ---------- C73: reading a channel as text ---------- *)
(* Whatever the sizes of the buffers are, the data that is read is the strings joined by
   newlines, after one more newline at the start; EOF is reported when all has been read. *)
Theorem C73_reader_partial : forall C (nl : C) ss ns, ss <> [] -> Forall (lt 0) ns ->
  let gs := fst (reads nl ns (new_reader ss)) in
  (exists more, data gs ++ more = nl :: joined nl ss) /\
  (forall i, nth_error gs i = Some EOF -> data (firstn i gs) = nl :: joined nl ss).
Proof.
  intros C nl ss ns NE P. destruct (reads_rest C nl ns (new_reader ss) eq_refl P) as [A B].
  assert (R : rest nl (new_reader ss) = nl :: joined nl ss) by (rewrite <- lead_joined by exact NE; destruct ss; [congruence|reflexivity]). rewrite R in *. cbn zeta. split; [eexists; exact A|exact B].
Qed.
(* every read returns something until the end *)
Theorem C73_progress : forall C (nl : C) ss ns n, Forall (lt 0) ns -> 0 < n -> match fst (read nl n (snd (reads nl ns (new_reader ss)))) with Got cs => cs <> [] | EOF => data (fst (reads nl ns (new_reader ss))) = concat (map (cons nl) ss) end.
Proof.
  intros C nl ss ns n P N. assert (G : forall ns (r : creader C), first r = false -> Forall (lt 0) ns -> first (snd (reads nl ns r)) = false).
  { induction ns0 as [|m ns0 IH]; intros r F P0; [exact F|]. inversion P0 as [|? ? M P1]; subst. pose proof (read_rest C nl m r F M) as R. cbn [reads]. destruct (read nl m r) as [g r1] eqn:E.
    assert (F1 : first r1 = false) by (destruct g; tauto). specialize (IH r1 F1 P1). destruct (reads nl ns0 r1) as [gs r2]. exact IH. }
  specialize (G ns (new_reader ss) eq_refl P). destruct (reads_rest C nl ns (new_reader ss) eq_refl P) as [A _]. pose proof (read_rest C nl n _ G N) as R. destruct (read nl n _) as [[cs|] r'] eqn:E; cbn [fst].
  - tauto.
  - destruct R as (R0 & _). rewrite R0, app_nil_r in A. rewrite A. unfold rest, new_reader. cbn. destruct ss; reflexivity.
Qed.
(* the joined strings are not what is read *)
Theorem C73_reader_refuted : exists ss : list (list nat), fst (read 10 1000 (new_reader ss)) = Got (10 :: joined 10 ss) /\ ss <> [].
Proof. exists [[65; 66]]. split; [reflexivity|discriminate]. Qed.

(* ---------- runes ---------- *)
(* reading, and looking at the next rune by reading and unreading it *)
Inductive rop := Next | Peek.
Fixpoint scan {C} (nl : C) (ops : list rop) (s : scanner C) : list (outcome (option C)) * scanner C :=
  match ops with
  | [] => ([], s)
  | Next :: ops' => let (c, s1) := read_rune nl s in let (l, s2) := scan nl ops' s1 in (Ok c :: l, s2)
  | Peek :: ops' => let (c, s1) := read_rune nl s in
      match c with
      | None => let (l, s2) := scan nl ops' s1 in (Ok None :: l, s2)
      | Some _ => match unread_rune s1 with Ok s2 => let (l, s3) := scan nl ops' s2 in (Ok c :: l, s3) | _ => ([Err], s1) end
      end
  end.
(* the same on a text *)
Fixpoint scan_text {C} (ops : list rop) (text : list C) : list (outcome (option C)) :=
  match ops with [] => [] | Next :: ops' => Ok (hd_error text) :: scan_text ops' (tl text) | Peek :: ops' => Ok (hd_error text) :: scan_text ops' text end.
Definition left {C} (nl : C) (s : scanner C) : list C := sbuf s ++ concat (map (cons nl) (schan s)).
Lemma rune_left : forall C (nl : C) s, started s = true -> let (c, s') := read_rune nl s in c = hd_error (left nl s) /\ left nl s' = tl (left nl s) /\ started s' = true /\ (last s' = c \/ c = None).
Proof.
  intros C nl [ch b la st] E. cbn in E. subst st. unfold read_rune, left. cbn [sbuf schan started]. destruct b as [|c b].
  - destruct ch as [|t ts]; [cbn; auto|]. cbn. auto.
  - cbn. auto.
Qed.
Lemma scan_left : forall C (nl : C) ops s, started s = true -> fst (scan nl ops s) = scan_text ops (left nl s).
Proof.
  intros C nl ops. induction ops as [|o ops IH]; intros s ST; [reflexivity|]. pose proof (rune_left C nl s ST) as R. destruct o; cbn [scan scan_text]; destruct (read_rune nl s) as [c s1] eqn:E; destruct R as (-> & L & S1 & LA).
  - specialize (IH s1 S1). destruct (scan nl ops s1) as [l s2]. cbn [fst] in *. rewrite IH, L. reflexivity.
  - destruct (left nl s) as [|c ls] eqn:Q; cbn [hd_error tl] in *.
    + specialize (IH s1 S1). destruct (scan nl ops s1) as [l s2]. cbn [fst] in *. rewrite IH, L. reflexivity.
    + destruct LA as [LA|LA]; [|discriminate]. unfold unread_rune. rewrite LA. specialize (IH (mkS (schan s1) (c :: sbuf s1) None (started s1)) S1).
      assert (X : left nl (mkS (schan s1) (c :: sbuf s1) None (started s1)) = c :: ls) by (unfold left in *; cbn; rewrite L; reflexivity).
      destruct (scan nl ops (mkS (schan s1) (c :: sbuf s1) None (started s1))) as [l s2]. cbn [fst] in *. rewrite IH, X. reflexivity.
Qed.
(* All runes of the strings joined by newlines, in order; an empty first string excepted. *)
Theorem C73_runes_partial : forall C (nl : C) s ss ops, s <> [] -> fst (scan nl ops (new_scanner (s :: ss))) = scan_text ops (joined nl (s :: ss)).
Proof.
  intros C nl s ss ops NE.
  assert (L : left nl (mkS ss s None true) = joined nl (s :: ss)).
  { unfold left. cbn [sbuf schan joined]. destruct ss as [|s' ss]; [cbn; apply app_nil_r|]. rewrite lead_joined by discriminate. reflexivity. }
  rewrite <- L, <- (scan_left C nl ops (mkS ss s None true) eq_refl). destruct s as [|c s]; [congruence|]. destruct ops as [|[] ops]; reflexivity.
Qed.
Theorem C73_runes_refuted : exists (s : list nat) ss, fst (scan 10 [Next] (new_scanner (s :: ss))) = [Ok None] /\ joined 10 (s :: ss) = [10; 65].
Proof. exists [], [[65]]. split; reflexivity. Qed.
Example C73_example : fst (scan 10 [Next; Peek; Next; Next; Next; Next] (new_scanner [[65; 66]; []; [67]])) = [Ok (Some 65); Ok (Some 66); Ok (Some 66); Ok (Some 10); Ok (Some 10); Ok (Some 67)].
Proof. reflexivity. Qed.
Print Assumptions C73_reader_partial.
Print Assumptions C73_runes_partial.
