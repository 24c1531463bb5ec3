(* M_Time.v -- model of apl/numbers/time.go: time stamps and durations.

   A time is its number of nanoseconds since y0, the first of January of the year 0; a duration
   is a number of nanoseconds in an int64.  time.Time is modelled without its limits (about
   292 billion years) and in UTC, the only time zone of the program. *)
From Verif Require Import Base.

Definition second : Z := 1000000000.
Definition day : Z := 86400 * second.
Definition y0 : Z := 0.
(* time.go:11-16: 1000.01.01, 365243 days later *)
Definition y1k : Z := 365243 * day.
Definition minD : Z := - 2 ^ 63.
Definition maxD : Z := 2 ^ 63 - 1.
(* int64 arithmetic *)
Definition wrap (z : Z) : Z := (z + 2 ^ 63) mod 2 ^ 64 - 2 ^ 63.

(* Go: time.Time.Sub saturates; Add; Before, After; negation of a Duration *)
Definition SubT (t u : Z) : Z := Z.max minD (Z.min maxD (t - u)).
Definition AddT (t d : Z) : Z := t + d.
Definition negD (d : Z) : Z := wrap (- d).
Definition After (t u : Z) : bool := u <? t.
Definition Before (t u : Z) : bool := t <? u.

(* time.go:78-80 Less *)
Definition Less (t r : Z) : bool := Before t r.
(* time.go:86-98 Add2; None: the operation is not accepted *)
Definition Add2 (t r : Z) : option Z :=
  if After t y1k && After r y1k then None
  else if After t y1k then Some (AddT t (SubT r y0))
  else Some (AddT r (SubT t y0)).
(* time.go:100-106 Sub *)
Definition Neg (t : Z) : option Z :=
  if Before t y1k then Some (AddT y0 (negD (SubT t y0))) else None.
(* time.go:108-124 Sub2 *)
Definition Sub2 (t r : Z) : option Z :=
  if After t y1k && After r y1k then Some (AddT y0 (SubT t r))
  else if Before t y1k && Before r y1k then Some (AddT (AddT y0 (SubT t y0)) (negD (SubT r y0)))
  else if After t y1k && Before r y1k then Some (AddT t (negD (SubT r y0)))
  else None.
(* time.go:126-132 Duration *)
Definition Duration (t : Z) : option Z := if Before t y1k then Some (SubT t y0) else None.
(* time.go:134-141 Mul *)
Definition Sign (t : Z) : Z := if Before t y0 then -1 else if After t y0 then 1 else 0.
(* time.go:180-185 Abs *)
Definition AbsT (t : Z) : Z := if Before t y0 then AddT y0 (negD (SubT t y0)) else t.
(* Go: time.Time.Truncate rounds down to a multiple of d since the year 1, which is 366 days
   after y0 *)
Definition Truncate (t d : Z) : Z := let z := 366 * day in z + (t - z) / d * d.
(* time.go:187-193 Floor, Ceil *)
Definition FloorT (t : Z) : Z := Truncate t second.
Definition CeilT (t : Z) : Z := Truncate (AddT t (500 * 1000000)) second.

(* ---------- the calendar (Go: time.Date, Time.Date, Weekday, ISOWeek) ---------- *)
Definition is_leap (y : Z) : bool := (y mod 4 =? 0) && (negb (y mod 100 =? 0) || (y mod 400 =? 0)).
(* days from the start of the year 0 to the start of the year y *)
Definition year_start (y : Z) : Z := 365 * y + (y + 3) / 4 - (y + 99) / 100 + (y + 399) / 400.
(* days of a year before the month m, 1 to 12 *)
Definition month_start (leap : bool) (m : Z) : Z :=
  nth (Z.to_nat (m - 1)) [0; 31; 59; 90; 120; 151; 181; 212; 243; 273; 304; 334; 365] 0
  + (if leap && (2 <? m) then 1 else 0).
(* time.Date(y, m, d, h, mi, s, 0, UTC): months and days out of range are normalized *)
Definition Date (y m d h mi s : Z) : Z :=
  let y' := y + (m - 1) / 12 in
  let m' := (m - 1) mod 12 + 1 in
  (year_start y' + month_start (is_leap y') m' + d - 1) * day + ((h * 60 + mi) * 60 + s) * second.
(* t.Date() and t.YearDay: the year of a day is found from an estimate that is at most one too
   small; the month is the last one that has started *)
Definition year_of (n : Z) : Z :=
  let y := n * 400 / 146097 in
  if n <? year_start y then y - 1 else if year_start (y + 1) <=? n then y + 1 else y.
Definition month_of (leap : bool) (yday : Z) : Z :=
  1 + Z.of_nat (length (filter (fun m => month_start leap m <=? yday) [2; 3; 4; 5; 6; 7; 8; 9; 10; 11; 12])).
Definition dayno (t : Z) : Z := t / day.
Definition YearT (t : Z) : Z := year_of (dayno t).
Definition YearDay (t : Z) : Z := dayno t - year_start (YearT t).
Definition MonthT (t : Z) : Z := month_of (is_leap (YearT t)) (YearDay t).
Definition DayT (t : Z) : Z := YearDay t - month_start (is_leap (YearT t)) (MonthT t) + 1.
Definition Hour (t : Z) : Z := t mod day / (3600 * second).
Definition Minute (t : Z) : Z := t mod (3600 * second) / (60 * second).
Definition SecondT (t : Z) : Z := t mod (60 * second) / second.
(* Weekday: 0 is Sunday; the first day of the year 0 was a Saturday *)
Definition weekday (n : Z) : Z := (n + 6) mod 7.
(* ISOWeek: the year and the week of the Thursday of this week *)
Definition ISOWeek (n : Z) : Z * Z :=
  let d := 4 - weekday n in
  let d := if d =? 4 then -3 else d in
  let th := n + d in
  (year_of th, (th - year_start (year_of th)) / 7 + 1).

(* time.go:235-246 roundQuarter *)
Definition roundQuarter (t : Z) : Z * Z * Z :=
  let y := YearT t in
  if Before t (Date y 4 1 0 0 0) then (Date y 1 1 0 0 0, y, 1)
  else if Before t (Date y 7 1 0 0 0) then (Date y 4 1 0 0 0, y, 2)
  else if Before t (Date y 10 1 0 0 0) then (Date y 7 1 0 0 0, y, 3)
  else (Date y 10 1 0 0 0, y, 4).
(* time.go:248-263 roundWeek: three loops over days; n bounds the number of their steps, None is
   a loop that has not ended then *)
Fixpoint while_day (n : nat) (c : Z -> bool) (step : Z) (d : Z) : option Z :=
  if c d then match n with O => None | S n' => while_day n' c step (d + step) end else Some d.
Definition roundWeek (n : nat) (year week : Z) : option Z :=
  let d0 := Date year 0 0 0 0 0 / day in
  match while_day n (fun d => negb (weekday d =? 1)) (-1) d0 with
  | None => None
  | Some d1 =>
      match while_day n (fun d => fst (ISOWeek d) <? year) 1 d1 with
      | None => None
      | Some d2 => match while_day n (fun d => snd (ISOWeek d) <? week) 1 d2 with
                   | None => None
                   | Some d3 => Some (d3 * day)
                   end
      end
  end.

(* Go: Duration.Round(m), half away from zero, saturating; % truncates towards zero *)
Definition RoundD (d m : Z) : Z :=
  if m <=? 0 then d else
  let r := Z.rem d m in
  if d <? 0 then
    let r := - r in
    if r + r <? m then d + r else
    let d1 := wrap (d - m + r) in if d1 <? d then d1 else minD
  else
    if r + r <? m then d - r else
    let d1 := wrap (d + m - r) in if d <? d1 then d1 else maxD.

Inductive period := PY | PM | PD | Ph | Pm | Ps | PQ | PW | Pms | Pus | Pns | POther.
(* time.go:265-285 roundDuration *)
Definition roundDuration (d : Z) (p : period) : outcome Z :=
  match p with
  | Ph => Ok (AddT y0 (RoundD d (3600 * second)))
  | Pm => Ok (AddT y0 (RoundD d (60 * second)))
  | Ps => Ok (AddT y0 (RoundD d second))
  | Pms => Ok (AddT y0 (RoundD d 1000000))
  | Pus => Ok (AddT y0 (RoundD d 1000))
  | Pns => Ok (AddT y0 (RoundD d 1))
  | _ => Err
  end.
(* time.go:203-233 Round; n bounds the steps of the loops of roundWeek (a loop that does not end
   is given as Panic) *)
Definition Round (n : nat) (t : Z) (p : period) : outcome Z :=
  match Duration t with
  | Some d => roundDuration d p
  | None =>
      let Y := YearT t in let M := MonthT t in let D := DayT t in
      let h := Hour t in let m := Minute t in let s := SecondT t in
      match p with
      | PY => Ok (Date Y 1 1 0 0 0)
      | PM => Ok (Date Y M 1 0 0 0)
      | PD => Ok (Date Y M D 0 0 0)
      | Ph => Ok (Date Y M D h 0 0)
      | Pm => Ok (Date Y M D h m 0)
      | Ps => Ok (Date Y M D h m s)
      | PQ => Ok (fst (fst (roundQuarter t)))
      | PW => match roundWeek n (fst (ISOWeek (dayno t))) (snd (ISOWeek (dayno t))) with Some r => Ok r | None => Panic end
      | _ => Err
      end
  end.
