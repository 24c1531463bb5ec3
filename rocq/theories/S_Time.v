(* S_Time.v -- vocabulary for times: stamps, durations and the calendar. *)
From Verif Require Import Base M_Time.

(* a time stamp is after the start of the year 1000; a duration is a number of nanoseconds that
   fits into 64 bits *)
Definition stamp (t : Z) : Prop := y1k < t.
Definition duration (d : Z) : Prop := - 2 ^ 63 < d < 2 ^ 63.

(* The Gregorian calendar: the number of the first day of each year, counted from that of the
   year 0, and of each month. *)
Definition leap_year (y : Z) : Prop := (4 | y) /\ (~ (100 | y) \/ (400 | y)).
Definition calendar (first : Z -> Z) : Prop :=
  first 0 = 0 /\ forall y, (leap_year y -> first (y + 1) = first y + 366) /\ (~ leap_year y -> first (y + 1) = first y + 365).
Definition month_lengths (february : Z) : list Z := [31; february; 31; 30; 31; 30; 31; 31; 30; 31; 30; 31].
(* the first day of the month m (1 to 12; 13 is the next January) of the year y *)
Definition month_first (first : Z -> Z) (y m : Z) : Z :=
  first y + fold_right Z.add 0 (firstn (Z.to_nat (m - 1)) (month_lengths (first (y + 1) - first y - 337))).
(* midnight at the start of a day *)
Definition midnight (n : Z) : Z := n * day.
