(* Prop_Strings.v -- joining and splitting strings: C110, C111. *)
From Verif Require Import Base M_Array S_Array M_Scan M_Strings S_Strings P_Strings.

(* a vector of strings *)
Definition strings (v : list bytes) : arr elt := mkArr [zlen v] (map Some v).

(* ---------- C110: join and split ---------- *)
(* S⊂V are the strings of V with S in between; ⊂V are the strings of V without anything in
   between.  The strings are taken in the order of the ravel, whatever the shape is. *)
Theorem C110_join : forall sep (V : arr elt) s,
  strjoin sep V = Ok s <-> exists v, elems V = map Some v /\ joined sep v s.
Proof.
  intros sep V s. unfold strjoin. destruct (strvec (elems V)) as [v|] eqn:E.
  - apply strvec_some in E. split.
    + intros H. injection H as <-. exists v. split; [exact E|]. apply Join_joined. reflexivity.
    + intros (w & E' & J). rewrite E in E'. assert (v = w) as ->.
      { apply (f_equal strvec) in E'. rewrite !(proj2 (strvec_some _ _) eq_refl) in E'. injection E' as ->. reflexivity. }
      apply Join_joined in J. rewrite J. reflexivity.
  - split; [discriminate|]. intros (v & E' & _). apply strvec_some in E'. congruence.
Qed.
Theorem C110_catenate : forall (V : arr elt) s,
  strcat V = Ok s <-> exists v, elems V = map Some v /\ s = concat v.
Proof.
  intros V s. unfold strcat. destruct (strvec (elems V)) as [v|] eqn:E.
  - apply strvec_some in E. rewrite Join_concat. split.
    + intros H. injection H as <-. exists v. auto.
    + intros (w & E' & ->). rewrite E in E'. apply (f_equal strvec) in E'. rewrite !(proj2 (strvec_some _ _) eq_refl) in E'. injection E' as ->. reflexivity.
  - split; [discriminate|]. intros (v & E' & _). apply strvec_some in E'. congruence.
Qed.
(* any other element is an error *)
Theorem C110_strings_only : forall sep (V : arr elt),
  In None (elems V) -> strjoin sep V = Err /\ strcat V = Err.
Proof.
  intros sep V H. unfold strjoin, strcat. destruct (strvec (elems V)) as [v|] eqn:E; [|auto].
  apply strvec_some in E. rewrite E in H. apply in_map_iff in H. destruct H as (x & H & _). discriminate.
Qed.
(* S⊃R are the parts of R between the occurrences of S, which are searched from the left
   and do not overlap *)
Theorem C110_split : forall U sep R v, sep <> [] ->
  strsplit U sep R = mkArr [zlen v] v <-> joined sep v R /\ cut_parts sep v.
Proof.
  intros U sep R v Hs. unfold strsplit. destruct sep as [|c sep'] eqn:E; [congruence|]. rewrite <- E in *.
  rewrite <- (Split_iff sep R v Hs). split; [|intros ->; reflexivity].
  intros H. apply (f_equal elems) in H. cbn [elems] in H. exact H.
Qed.
(* joining the parts gives back the string: S⊂S⊃R ←→ R *)
Theorem C110_join_split : forall U sep R, sep <> [] ->
  strjoin sep (strings (elems (strsplit U sep R))) = Ok R.
Proof.
  intros U sep R Hs. apply C110_join. exists (elems (strsplit U sep R)). split; [reflexivity|].
  unfold strsplit. destruct sep as [|c sep'] eqn:E; [congruence|]. rewrite <- E in *.
  apply (proj1 (Split_iff sep R _ Hs) eq_refl).
Qed.
(* splitting joined strings gives back the strings, S⊃S⊂V ←→ V, exactly if S occurs in none
   of them and not across their ends *)
Theorem C110_split_join : forall U sep v s, sep <> [] -> strjoin sep (strings v) = Ok s ->
  strsplit U sep s = mkArr [zlen v] v <-> cut_parts sep v.
Proof.
  intros U sep v s Hs H. apply C110_join in H. destruct H as (w & E & J). cbn [elems strings] in E.
  apply (f_equal strvec) in E. rewrite !(proj2 (strvec_some _ _) eq_refl) in E. injection E as <-.
  rewrite C110_split by exact Hs. tauto.
Qed.
(* for a separator of one character: exactly if it is in none of the strings *)
Theorem C110_split_join_char : forall U c v s, v <> [] -> strjoin [c] (strings v) = Ok s ->
  strsplit U [c] s = mkArr [zlen v] v <-> Forall (fun x => ~ In c x) v.
Proof.
  intros U c v s N H. rewrite (C110_split_join U [c] v s) by (try discriminate; exact H). split.
  - apply cut_parts_one_inv.
  - apply cut_parts_one. exact N.
Qed.
(* the empty vector is not given back: its strings are joined to the empty string, which
   has one part *)
Theorem C110_split_join_empty : forall U sep, sep <> [] ->
  strjoin sep (strings []) = Ok [] /\ strsplit U sep [] = mkArr [1] [[]].
Proof.
  intros U sep Hs. split; [reflexivity|]. apply (proj2 (C110_split U sep [] [[]] Hs)). split; [constructor|]. constructor.
  intros (x & y & E). symmetry in E. apply app_eq_nil in E. destruct E as (_ & E). apply app_eq_nil in E. destruct E; congruence.
Qed.

(* ---------- C111: runes and words ---------- *)
(* ⊃S are the runes of a string *)
Theorem C111_runes : forall rs, Forall rune rs ->
  runesplit (utf8 rs) = mkArr [zlen rs] (map encodeRune rs).
Proof.
  intros rs H. unfold runesplit. rewrite decode_utf8 by exact H. rewrite map_map. cbn [fst].
  f_equal. f_equal. unfold zlen. rewrite map_length. reflexivity.
Qed.
(* ⊂⊃S ←→ S, exactly for the strings that are valid UTF-8 *)
Theorem C111_join_runes : forall S, Forall (fun b => 0 <= b <= 255) S ->
  strcat (strings (elems (runesplit S))) = Ok S <-> valid_utf8 S.
Proof.
  intros S HS. rewrite C110_catenate. cbn [strings elems runesplit]. split.
  - intros (v & E & C). apply (f_equal strvec) in E. rewrite !(proj2 (strvec_some _ _) eq_refl) in E. injection E as <-.
    exists (map fst (decode S)). split; [|rewrite C at 1; unfold utf8; rewrite map_map; reflexivity].
    assert (G : forall n s, Forall (fun b => 0 <= b <= 255) s -> Forall rune (map fst (decodeN n s))).
    { induction n as [|n IH]; intros s H; [constructor|]. cbn [decodeN]. destruct (decodeRune s) as [[[r b] t]|] eqn:D; [|constructor].
      cbn [map fst]. constructor; [exact (decodeRune_rune s r b t H D)|]. apply IH.
      destruct (decodeRune_app _ _ _ _ D) as (E & _). rewrite E in H. apply Forall_app in H. apply H. }
    apply G. exact HS.
  - intros (rs & Hr & ->). exists (map encodeRune rs). split; [|reflexivity]. f_equal.
    rewrite decode_utf8 by exact Hr. rewrite map_map. reflexivity.
Qed.
(* ""⊃S are the words of a string, which are separated by spaces *)
Theorem C111_words : forall U rs v, Forall rune rs ->
  (exists w, words U rs w) /\
  (strsplit U [] (utf8 rs) = mkArr [zlen v] v <-> exists w, words U rs w /\ v = map utf8 w).
Proof.
  intros U rs v Hr. split; [apply words_exists|]. unfold strsplit, Fields. rewrite decode_utf8 by exact Hr.
  destruct (words_exists U rs) as (w & W). rewrite (fields_words U rs w W). split.
  - intros H. apply (f_equal elems) in H. cbn [elems] in H. subst v. exists w. split; [exact W|reflexivity].
  - intros (w' & W' & ->). pose proof (fields_words U rs w W) as A. pose proof (fields_words U rs w' W') as B.
    rewrite A in B. rewrite B. reflexivity.
Qed.

(* ---------- examples ---------- *)
Definition latin : unicode := mkUnicode (fun _ => false) (fun _ => false) (fun _ => false) (fun _ => false).
(* ", " split: "a, b,c" *)
Example C110_example :
  strsplit latin [44; 32] [97; 44; 32; 98; 44; 99] = mkArr [2] [[97]; [98; 44; 99]] /\
  strjoin [44; 32] (strings [[97]; [98; 44; 99]]) = Ok [97; 44; 32; 98; 44; 99] /\
  cut_parts [44] [[97]; []; [98]] /\
  ~ cut_parts [97; 97] [[97]; []].
Proof.
  split; [reflexivity|]. split; [reflexivity|]. split.
  - apply cut_parts_one; [discriminate|]. repeat constructor; cbn; intuition congruence.
  - intros H. inversion H as [|x v F C]; subst. specialize (F [] [97] eq_refl). discriminate.
Qed.
(* "é ⍺" *)
Example C111_example :
  utf8 [233; 32; 9082] = [195; 169; 32; 226; 141; 186] /\
  runesplit [195; 169; 32; 226; 141; 186] = mkArr [3] [[195; 169]; [32]; [226; 141; 186]] /\
  strsplit latin [] [195; 169; 32; 226; 141; 186] = mkArr [2] [[195; 169]; [226; 141; 186]] /\
  runesplit [195; 32] = mkArr [2] [[239; 191; 189]; [32]].
Proof. repeat split; reflexivity. Qed.

Print Assumptions C110_join. Print Assumptions C110_catenate. Print Assumptions C110_strings_only.
Print Assumptions C110_split. Print Assumptions C110_join_split. Print Assumptions C110_split_join.
Print Assumptions C110_split_join_char. Print Assumptions C110_split_join_empty.
Print Assumptions C111_runes. Print Assumptions C111_join_runes. Print Assumptions C111_words.
