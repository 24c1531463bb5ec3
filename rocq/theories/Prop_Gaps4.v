(* Prop_Gaps4.v -- further parts of properties, found missing by wrong programs that were not noticed. *)
From Coq Require Import QArith.
From Verif Require Import Base M_Array M_Scan S_Scan Prop_Names.

(* ---------------- C96: names in Latin-1 ---------------- *)
(* the letters and digits of Latin-1 *)
Definition latin_letter (r : Z) : Prop :=
  65 <= r <= 90 \/ 97 <= r <= 122 \/ r = 170 \/ r = 181 \/ r = 186 \/ (192 <= r <= 255 /\ r <> 215 /\ r <> 247).
Definition latin_digit (r : Z) : Prop := 48 <= r <= 57 \/ r = 178 \/ r = 179 \/ r = 185 \/ 188 <= r <= 190.
(* A text of Latin-1 is a name exactly if it begins with a letter or underscore and goes on with letters, digits and underscores. *)
Theorem C96_latin_spelling : forall U r w, Forall (fun c => 0 <= c < 256) (r :: w) ->
  (spelled U (r :: w) <-> (r = 95 \/ latin_letter r) /\ Forall (fun c => c = 95 \/ latin_letter c \/ latin_digit c) w).
Proof.
  intros U r w F.
  assert (L : forall c, 0 <= c < 256 -> IsLetter U c = true <-> latin_letter c).
  { intros c Hc. unfold IsLetter, latin_letter, rune_range, in_runes. replace (c <? 256) with true by lia. cbn [existsb]. lia. }
  assert (N : forall c, 0 <= c < 256 -> IsNumber U c = true <-> latin_digit c).
  { intros c Hc. unfold IsNumber, latin_digit, digit, rune_range, in_runes. replace (c <? 256) with true by lia. cbn [existsb]. lia. }
  inversion F as [|? ? Hr Hw]; subst. unfold spelled. split.
  - intros (r' & w' & E & H1 & H2). injection E as <- <-. split.
    + unfold r_underscore, marker, r_quad, r_alpha, r_omega in H1. rewrite (L r Hr) in H1. destruct H1 as [H1|[H1|H1]]; [left; exact H1|right; exact H1|lia].
    + rewrite Forall_forall in *. intros c Hc. specialize (H2 c Hc). rewrite (L c (Hw c Hc)), (N c (Hw c Hc)) in H2. exact H2.
  - intros [H1 H2]. exists r, w. split; [reflexivity|]. split; [rewrite (L r Hr); unfold r_underscore; tauto|].
    rewrite Forall_forall in *. intros c Hc. rewrite (L c (Hw c Hc)), (N c (Hw c Hc)). exact (H2 c Hc).
Qed.
Print Assumptions C96_latin_spelling.
Example C96_latin_spelling_example : forall U, spelled U [65; 233; 95; 50] /\ ~ spelled U [50; 65] /\ ~ spelled U [65; 215].
Proof.
  intros U. repeat split.
  - apply C96_latin_spelling; [repeat constructor; lia|]. unfold latin_letter, latin_digit. split; [lia|]. repeat constructor; lia.
  - intros H. apply C96_latin_spelling in H; [|repeat constructor; lia]. unfold latin_letter in H. lia.
  - intros H. apply C96_latin_spelling in H; [|repeat constructor; lia]. destruct H as [_ H]. inversion H as [|? ? H1 _]; subst. unfold latin_letter, latin_digit in H1. lia.
Qed.
