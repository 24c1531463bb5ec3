(* Prop_Testing.v -- C172: the runner of the example programs. *)
From Coq Require Import Permutation.
From Verif Require Import Base M_Array M_Strings S_Strings P_Strings M_Mount S_Mount P_Mount M_Testing.

Section C172.
  Context (content : bytes -> option bytes) (apl : bytes -> option bytes * bytes) (iv : bytes -> bytes -> option bytes * bytes).

  (* The program stem.apl behaves as its files say: without an error it writes what is in stem.out, with an error its text is that of stem.err. *)
  Definition as_expected (stem : bytes) : Prop :=
    match apl (stem ++ sApl) with
    | (None, out) => content (stem ++ sOut) = Some out
    | (Some e, _) => content (stem ++ sErr) = Some (e ++ [10])
    end.
  (* The first line of stem.iv is one character and the program; the rest is its input. *)
  Definition iv_as_expected (stem : bytes) : Prop :=
    exists c p rest out, ~ In 10 (c :: p) /\ content (stem ++ sIv) = Some (c :: p ++ 10 :: rest) /\ iv p rest = (None, out) /\ content (stem ++ sOut) = Some out.
  Definition newlines (s : bytes) : Z := zlen (filter (fun b => b =? 10) s).

  Lemma zlen_pos {A} (l : list A) : 0 <= zlen l. Proof. unfold zlen. lia. Qed.
  Lemma diff_same l : forall i line a, fst (diff_loop l l i line a) = a.
  Proof. induction l as [|b l IH]; intros i line a; cbn [diff_loop]; [reflexivity|]. rewrite Z.eqb_refl. apply IH. Qed.
  Lemma diff_spec want : forall got i line a, 0 <= i ->
    (exists k w g rest rest', want = k ++ w :: rest /\ got = k ++ g :: rest' /\ w <> g /\ diff_loop want got i line a = (i + zlen k, line + newlines (k ++ [w]))) \/
    ((exists r, want = got ++ r \/ got = want ++ r) /\ diff_loop want got i line a = (a, line + newlines (firstn (length got) want))).
  Proof.
    unfold newlines. induction want as [|w want IH]; intros got i line a Hi.
    - right. split; [exists got; right; reflexivity|]. cbn [diff_loop]. rewrite firstn_nil. cbn. f_equal. lia.
    - destruct got as [|g got].
      + right. split; [exists (w :: want); left; reflexivity|]. cbn. f_equal. lia.
      + cbn [diff_loop]. destruct (g =? w) eqn:E.
        * apply Z.eqb_eq in E. subst g. destruct (IH got (i + 1) (if w =? 10 then line + 1 else line) a ltac:(lia)) as [(k & w' & g & r & r' & -> & -> & N & ->)|[(r & R) ->]].
          -- left. exists (w :: k), w', g, r, r'. split; [reflexivity|]. split; [reflexivity|]. split; [exact N|]. cbn [app filter]. f_equal; [unfold zlen; cbn [length]; lia|].
             destruct (w =? 10); unfold zlen; cbn [length]; lia.
          -- right. split; [exists r; destruct R as [-> | ->]; [left|right]; reflexivity|]. cbn [length firstn filter]. f_equal. destruct (w =? 10); unfold zlen; cbn [length]; lia.
        * left. exists [], w, g, want, got. apply Z.eqb_neq in E. split; [reflexivity|]. split; [reflexivity|]. split; [congruence|]. cbn [app filter]. f_equal; [unfold zlen; cbn; lia|].
          destruct (w =? 10); unfold zlen; cbn [length]; lia.
  Qed.
  Lemma compareOut_none got file : compareOut content got file = None <-> content (file ++ sOut) = Some got.
  Proof.
    unfold compareOut. destruct (content (file ++ sOut)) as [want|]; [|split; discriminate].
    split.
    - intros H. destruct (diff_spec want got 0 1 (if zlen want =? zlen got then -1 else Z.min (zlen want) (zlen got)) ltac:(lia)) as [(k & w & g & r & r' & Ew & Eg & N & E)|[(r & R) E]]; rewrite E in H.
      + pose proof (zlen_pos k). replace (0 + zlen k <? 0) with false in H by lia. discriminate H.
      + destruct (zlen want =? zlen got) eqn:L.
        * apply Z.eqb_eq in L. assert (r = []) as ->. { destruct R as [-> | ->]; unfold zlen in L; rewrite app_length in L; destruct r; cbn [length] in L; [reflexivity|lia|reflexivity|lia]. }
          destruct R as [-> | ->]; rewrite app_nil_r; reflexivity.
        * pose proof (zlen_pos want). pose proof (zlen_pos got). replace (Z.min (zlen want) (zlen got) <? 0) with false in H by lia. discriminate H.
    - intros E. injection E as <-. rewrite Z.eqb_refl. pose proof (diff_same want 0 1 (-1)) as D. destruct (diff_loop want want 0 1 (-1)) as [a l]. cbn [fst] in D. subst a. reflexivity.
  Qed.
  Lemma cutoff_suffix n stem suf : zlen suf = n -> cutoff n (stem ++ suf) = Ok stem.
  Proof.
    intros H. unfold cutoff. replace (zlen (stem ++ suf)) with (zlen stem + n) by (subst n; unfold zlen; rewrite app_length; lia). pose proof (zlen_pos stem). replace (zlen stem + n <? n) with false by lia.
    replace (zlen stem + n - n) with (zlen stem) by lia. unfold zlen. rewrite Nat2Z.id. rewrite firstn_app, Nat.sub_diag, firstn_all. cbn [firstn]. rewrite app_nil_r. reflexivity.
  Qed.
  Lemma test_apl stem : testAplFile content apl (stem ++ sApl) = Ok None <-> as_expected stem.
  Proof.
    unfold testAplFile, as_expected, compareError. rewrite !(cutoff_suffix 4 stem sApl) by reflexivity. destruct (apl (stem ++ sApl)) as [[e|] out]; cbn [obind].
    - destruct (content (stem ++ sErr)) as [want|]; [|split; discriminate]. destruct (beq (e ++ [10]) want) eqn:B.
      + apply beq_iff in B. subst want. split; reflexivity.
      + split; [discriminate|]. intros H. injection H as ->. rewrite (proj2 (beq_iff (e ++ [10]) (e ++ [10])) eq_refl) in B. discriminate B.
    - rewrite <- compareOut_none. split; [intros H; injection H as H; exact H|intros ->; reflexivity].
  Qed.
  Lemma readline_spec s l q : readline s = Some (l, q) <-> ~ In 10 l /\ s = l ++ 10 :: q.
  Proof.
    revert l q. induction s as [|b s IH]; intros l q; cbn [readline]; [split; [discriminate|]; intros [_ E]; destruct l; discriminate E|].
    destruct (b =? 10) eqn:E.
    - apply Z.eqb_eq in E. subst b. split; [intros H; injection H as <- <-; split; [intros []|reflexivity]|]. intros [N H]. destruct l as [|c l]; [injection H as <-; reflexivity|]. injection H as <- _. exfalso. apply N. left. reflexivity.
    - apply Z.eqb_neq in E. destruct (readline s) as [[l' q']|] eqn:R.
      + destruct (proj1 (IH l' q') eq_refl) as [N ->]. split.
        * intros H. injection H as <- <-. split; [intros [H|H]; [congruence|exact (N H)]|reflexivity].
        * intros [N2 H]. destruct l as [|c l]; [injection H as H _; congruence|]. injection H as <- H. assert (R2 : Some (l', q') = Some (l, q)). { apply IH. split; [intros I; apply N2; right; exact I|exact H]. } injection R2 as <- <-. reflexivity.
      + split; [discriminate|]. intros [N2 H]. destruct l as [|c l]; [injection H as H _; congruence|]. injection H as <- H. exfalso. assert (R2 : None = Some (l, q)). { apply IH. split; [intros I; apply N2; right; exact I|exact H]. } discriminate R2.
  Qed.
  Lemma test_iv stem : testIvFile content iv stem = Ok None <-> iv_as_expected stem.
  Proof.
    unfold testIvFile, iv_as_expected. split.
    - destruct (content (stem ++ sIv)) as [c|]; [|discriminate]. destruct (readline c) as [[[|c0 p] rest]|] eqn:R; [discriminate| |discriminate]. apply readline_spec in R as [N ->].
      destruct (iv p rest) as [[e|] out] eqn:V; [discriminate|]. intros H. injection H as H. apply compareOut_none in H. exists c0, p, rest, out. auto.
    - intros (c & p & rest & out & N & E & V & O). rewrite E. rewrite (proj2 (readline_spec (c :: p ++ 10 :: rest) (c :: p) rest)) by (split; [exact N|reflexivity]). rewrite V.
      f_equal. apply compareOut_none, O.
  Qed.
  Lemma each_passes suffix (test : bytes -> outcome (option failure)) files : each_file suffix test files = Ok None <-> forall stem, In (stem ++ suffix) files -> test (stem ++ suffix) = Ok None.
  Proof.
    induction files as [|f files IH]; cbn [each_file]; [split; [intros _ stem []|reflexivity]|].
    destruct (HasSuffix f suffix) eqn:E; cbn [negb].
    - apply HasSuffix_iff in E as (y & ->). split.
      + intros H stem I. destruct (test (y ++ suffix)) as [[e|]| |] eqn:T; try discriminate H. cbn [obind] in H. destruct I as [I|I]; [rewrite <- I; exact T|]. apply IH; assumption.
      + intros H. rewrite (H y (or_introl eq_refl)). cbn [obind]. apply IH. intros stem I. apply H. right. exact I.
    - rewrite IH. split; intros H stem I; [|apply H; right; exact I]. destruct I as [-> |I]; [|apply H, I]. assert (HasSuffix (stem ++ suffix) suffix = true) by (apply HasSuffix_iff; exists stem; reflexivity). congruence.
  Qed.

  (* The tests of apl pass exactly if every program of the directory behaves as its files say; other files do not matter. *)
  Theorem C172_passes files : AplTest content apl files = Ok None <-> forall stem, In (stem ++ sApl) files -> as_expected stem.
  Proof. unfold AplTest. rewrite each_passes. split; intros H stem I; apply test_apl, H, I. Qed.
  (* The same for iv. *)
  Theorem C172_iv_passes files : IvTest content iv files = Ok None <-> forall stem, In (stem ++ sIv) files -> iv_as_expected stem.
  Proof.
    unfold IvTest. rewrite each_passes. split; intros H stem I; specialize (H stem I).
    - rewrite (cutoff_suffix 3) in H by reflexivity. apply test_iv, H.
    - rewrite (cutoff_suffix 3) by reflexivity. apply test_iv, H.
  Qed.
  (* The order in which the os gives the names does not matter for that. *)
  Theorem C172_order files files' : Permutation files files' -> AplTest content apl files = Ok None -> AplTest content apl files' = Ok None.
  Proof. intros P H. apply C172_passes. intros stem I. apply (proj1 (C172_passes files) H). eapply Permutation_in; [apply Permutation_sym, P|exact I]. Qed.
  (* The tests of apl never crash. *)
  Theorem C172_no_panic files : AplTest content apl files <> Panic /\ AplTest content apl files <> Err.
  Proof.
    unfold AplTest. induction files as [|f files IH]; cbn [each_file]; [split; discriminate|]. destruct (HasSuffix f sApl) eqn:E; cbn [negb]; [|exact IH].
    apply HasSuffix_iff in E as (y & ->). assert (T : exists o, testAplFile content apl (y ++ sApl) = Ok o).
    { unfold testAplFile, compareError. rewrite !(cutoff_suffix 4 y sApl) by reflexivity. cbn [obind]. destruct (apl (y ++ sApl)) as [[e|] out]; [destruct (content (y ++ sErr)); [destruct (beq _ _)|]|]; eexists; reflexivity. }
    destruct T as (o & ->). cbn [obind]. destruct o; [split; discriminate|exact IH].
  Qed.
  (* Where the texts differ: the number of the first byte that is different, and the line that it is in, if a byte other than a newline was expected there. *)
  Theorem C172_place got file k w g rest rest' : content (file ++ sOut) = Some (k ++ w :: rest) -> got = k ++ g :: rest' -> w <> g -> w <> 10 ->
    compareOut content got file = Some (FDiffers (file ++ sOut) (1 + newlines k) (zlen k + 1)).
  Proof.
    intros E -> N N10. unfold compareOut. rewrite E.
    destruct (diff_spec (k ++ w :: rest) (k ++ g :: rest') 0 1 (if zlen (k ++ w :: rest) =? zlen (k ++ g :: rest') then -1 else Z.min (zlen (k ++ w :: rest)) (zlen (k ++ g :: rest'))) ltac:(lia)) as [(k2 & w2 & g2 & r & r' & Ew & Eg & N2 & ->)|[(r & R) _]].
    - assert (K : k = k2 /\ w = w2).
      { clear -Ew Eg N N2. revert k2 Ew Eg. induction k as [|x k IH]; intros [|y k2] Ew Eg; cbn [app] in *; injection Ew as A B; injection Eg as C D; subst; auto; try contradiction.
        destruct (IH k2 B D) as [-> ->]. auto. }
      destruct K as [<- <-]. pose proof (zlen_pos k). replace (0 + zlen k <? 0) with false by lia. f_equal. f_equal. unfold newlines. rewrite filter_app. cbn [filter]. apply Z.eqb_neq in N10. rewrite N10. rewrite app_nil_r. reflexivity.
    - exfalso. clear E. induction k as [|x k IH]; cbn [app] in R; destruct R as [R|R]; injection R as R1; try congruence; [apply IH; left; assumption|apply IH; right; assumption].
  Qed.
  (* One text is a beginning of the other: the end of the shorter one is the place. *)
  Theorem C172_shorter want got file : content (file ++ sOut) = Some want -> (exists r, r <> [] /\ (want = got ++ r \/ got = want ++ r)) ->
    let short := firstn (length got) want in
    compareOut content got file = Some (FDiffers (file ++ sOut) (1 + newlines short) (zlen short + 1)).
  Proof.
    intros E (r & Nr & R) short. unfold compareOut. rewrite E.
    assert (L : zlen want <> zlen got /\ Z.min (zlen want) (zlen got) = zlen short).
    { unfold short, zlen. rewrite firstn_length. destruct R as [-> | ->]; rewrite app_length; destruct r; try contradiction; cbn [length]; lia. }
    destruct L as [L1 L2]. apply Z.eqb_neq in L1. rewrite L1, L2.
    destruct (diff_spec want got 0 1 (zlen short) ltac:(lia)) as [(k & w & g & s & s' & Ew & Eg & N & _)|[_ ->]].
    - exfalso. destruct R as [R|R]; rewrite Ew, Eg in R; rewrite <- !app_assoc in R; apply app_inv_head in R; cbn [app] in R; injection R as R; congruence.
    - pose proof (zlen_pos short). replace (zlen short <? 0) with false by lia. reflexivity.
  Qed.
End C172.
(* If a newline was expected where the first difference is, the line is one too large: here in the first line, but line 2 is given. *)
Theorem C172_line_refuted : exists want got file, ~ In 10 (firstn 2 want) /\ firstn 2 want = firstn 2 got /\ znth want 2 <> znth got 2 /\
  compareOut (fun _ => Some want) got file = Some (FDiffers (file ++ sOut) 2 3).
Proof. exists [97; 98; 10; 99; 10], [97; 98; 99; 10], []. split; [cbn; lia|]. split; [reflexivity|]. split; [discriminate|]. reflexivity. Qed.
(* An iv test with an empty first line crashes the tests. *)
Theorem C172_empty_line_refuted : forall iv, IvTest (fun _ => Some [10; 49]) iv [[97] ++ sIv] = Panic.
Proof. reflexivity. Qed.
Print Assumptions C172_passes. Print Assumptions C172_iv_passes. Print Assumptions C172_order. Print Assumptions C172_no_panic. Print Assumptions C172_place. Print Assumptions C172_shorter. Print Assumptions C172_line_refuted. Print Assumptions C172_empty_line_refuted.
(* a.apl writes 7 as a.out says, e.apl fails with the text of e.err. *)
Example C172_example :
  let content := fun n => if beq n ([97] ++ sOut) then Some [55; 10] else if beq n ([101] ++ sErr) then Some [33; 10] else None in
  let apl := fun n => if beq n ([97] ++ sApl) then (None, [55; 10]) else (Some [33], []) in
  AplTest content apl [[101] ++ sApl; [97] ++ sOut; [97] ++ sApl] = Ok None /\ as_expected content apl [97] /\ as_expected content apl [101] /\
  AplTest content (fun _ => (None, [55; 55; 10])) [[97] ++ sApl] = Ok (Some (FDiffers ([97] ++ sOut) 2 2)).
Proof. repeat split. Qed.
