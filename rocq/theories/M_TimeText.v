(* M_TimeText.v -- the texts of times and durations: apl/numbers/time.go:27-72 ParseTime and String,
   with the functions of Go's package time behind them (Duration.String, ParseDuration, Time.Format and
   time.Parse for the layouts of this file).  A text is a list of runes. *)
From Verif Require Import Base M_Format M_Time.
Open Scope Z_scope.

Definition tx := list Z.
Definition isdigit (c : Z) : bool := (48 <=? c) && (c <=? 57).
Definition c_point := 46. Definition c_minus := 45. Definition c_plus := 43. Definition c_high := 175.
Definition c_h := 104. Definition c_m := 109. Definition c_s := 115. Definition c_n := 110. Definition c_u := 117.
Definition c_micro := 181. (* U+00B5 *)
Definition c_mu := 956.    (* U+03BC *)
Definition c_T := 84.

(* ---- Go: Duration.String ---- *)
(* fmtFrac: the fraction of v/10^prec without trailing zeros, in front of acc, and the integer part *)
Fixpoint fmtFrac (prec : nat) (print : bool) (v : Z) (acc : tx) : tx * Z :=
  match prec with
  | O => (if print then c_point :: acc else acc, v)
  | S p =>
      let digit := v mod 10 in
      let print := print || negb (digit =? 0) in
      fmtFrac p print (v / 10) (if print then 48 + digit :: acc else acc)
  end.
Definition DurationString (d : Z) : tx :=
  let u := Z.abs d in
  let s :=
    if u =? 0 then [48; c_s]
    else if u <? 1000000000 then
      let '(prec, unit) := if u <? 1000 then (0%nat, [c_n]) else if u <? 1000000 then (3%nat, [c_micro]) else (6%nat, [c_m]) in
      let '(f, v) := fmtFrac prec false u [] in
      decimal v ++ f ++ unit ++ [c_s]
    else
      let '(f, v) := fmtFrac 9 false u [] in
      let sec := decimal (v mod 60) ++ f ++ [c_s] in
      let mi := v / 60 in
      if mi =? 0 then sec else
      let ms := decimal (mi mod 60) ++ c_m :: sec in
      let h := mi / 60 in
      if h =? 0 then ms else decimal h ++ c_h :: ms in
  if d <? 0 then c_minus :: s else s.

(* ---- Go: time.ParseDuration ---- *)
Definition maxInt : Z := 2 ^ 63 - 1.
Fixpoint leadingInt (x : Z) (s : tx) : option (Z * tx) :=
  match s with
  | c :: r => if isdigit c then (if maxInt <? x * 10 + (c - 48) then None else leadingInt (x * 10 + (c - 48)) r) else Some (x, s)
  | [] => Some (x, [])
  end.
(* further digits are skipped once the number has no room left *)
Fixpoint leadingFraction (over : bool) (x scale : Z) (s : tx) : Z * Z * tx :=
  match s with
  | c :: r =>
      if isdigit c then
        if over || (maxInt <? x * 10 + (c - 48)) then leadingFraction true x scale r
        else leadingFraction false (x * 10 + (c - 48)) (scale * 10) r
      else (x, scale, s)
  | [] => (x, scale, [])
  end.
Fixpoint span (p : Z -> bool) (s : tx) : tx * tx :=
  match s with
  | c :: r => if p c then let '(a, b) := span p r in (c :: a, b) else ([], s)
  | [] => ([], [])
  end.
Definition unit_of (u : tx) : option Z :=
  if list_eq_dec Z.eq_dec u [c_n; c_s] then Some 1
  else if list_eq_dec Z.eq_dec u [c_u; c_s] then Some 1000
  else if list_eq_dec Z.eq_dec u [c_micro; c_s] then Some 1000
  else if list_eq_dec Z.eq_dec u [c_mu; c_s] then Some 1000
  else if list_eq_dec Z.eq_dec u [c_m; c_s] then Some 1000000
  else if list_eq_dec Z.eq_dec u [c_s] then Some second
  else if list_eq_dec Z.eq_dec u [c_m] then Some (60 * second)
  else if list_eq_dec Z.eq_dec u [c_h] then Some (3600 * second)
  else None.
(* the loop.  The fraction is computed with doubles in Go, int64(float64(f) * (float64(unit)/scale)); it
   is exact here, as the doubles are whenever scale divides unit and f < scale. *)
Fixpoint parseUnits (n : nat) (d : Z) (s : tx) : option Z :=
  match s with
  | [] => Some d
  | c :: _ =>
      match n with
      | O => None
      | S n' =>
          if negb ((c =? c_point) || isdigit c) then None else
          match leadingInt 0 s with
          | None => None
          | Some (v, s1) =>
              let pre := negb (zlen s =? zlen s1) in
              let '(f, scale, s2, post) :=
                match s1 with
                | x :: t => if x =? c_point then let '(f, scale, r) := leadingFraction false 0 1 t in (f, scale, r, negb (zlen t =? zlen r)) else (0, 1, s1, false)
                | [] => (0, 1, s1, false)
                end in
              if negb pre && negb post then None else
              let '(u, s3) := span (fun c => negb ((c =? c_point) || isdigit c)) s2 in
              match unit_of u with
              | None => None
              | Some unit =>
                  if maxInt / unit <? v then None else
                  let v := v * unit + (if 0 <? f then f * unit / scale else 0) in
                  if maxInt <? v then None else
                  if maxInt <? d + v then None else parseUnits n' (d + v) s3
              end
          end
      end
  end.
Definition ParseDuration (s : tx) : option Z :=
  let '(neg, s) := match s with c :: r => if (c =? c_minus) || (c =? c_plus) then (c =? c_minus, r) else (false, s) | [] => (false, s) end in
  if list_eq_dec Z.eq_dec s [48] then Some 0 else
  match s with
  | [] => None
  | _ => option_map (fun d => if neg then - d else d) (parseUnits (length s) 0 s)
  end.

(* ---- Go: Time.Format("2006.01.02T15.04.05.000"), for years 0 to 9999 the year has 4 digits ---- *)
Definition pad2 (n : Z) : tx := [48 + n / 10; 48 + n mod 10].
Definition pad3 (n : Z) : tx := [48 + n / 100; 48 + n / 10 mod 10; 48 + n mod 10].
(* appendInt(b, year, 4) *)
Definition pad4 (n : Z) : tx := if n <? 10000 then [48 + n / 1000; 48 + n / 100 mod 10; 48 + n / 10 mod 10; 48 + n mod 10] else decimal n.
Definition StampString (t : Z) : tx :=
  pad4 (YearT t) ++ c_point :: pad2 (MonthT t) ++ c_point :: pad2 (DayT t) ++ c_T ::
  pad2 (Hour t) ++ c_point :: pad2 (Minute t) ++ c_point :: pad2 (SecondT t) ++ c_point :: pad3 (t mod second / 1000000).

(* ---- Go: time.Parse for the layouts of time.go:40-45 ---- *)
Definition digit2 (a b : Z) : option Z := if isdigit a && isdigit b then Some ((a - 48) * 10 + (b - 48)) else None.
(* getnum(value, true) *)
Definition fixed2 (s : tx) : option (Z * tx) :=
  match s with a :: b :: r => option_map (fun n => (n, r)) (digit2 a b) | _ => None end.
(* getnum(value, false): the hour may have one digit *)
Definition oneOrTwo (s : tx) : option (Z * tx) :=
  match s with
  | a :: b :: r => if isdigit a then (if isdigit b then option_map (fun n => (n, r)) (digit2 a b) else Some (a - 48, b :: r)) else None
  | [a] => if isdigit a then Some (a - 48, []) else None
  | [] => None
  end.
Definition year4 (s : tx) : option (Z * tx) :=
  match s with
  | a :: b :: c :: e :: r => match digit2 a b, digit2 c e with Some x, Some y => Some (x * 100 + y, r) | _, _ => None end
  | _ => None
  end.
Definition skipc (c : Z) (s : tx) : option tx := match s with x :: r => if x =? c then Some r else None | [] => None end.
Notation "'get' p <- e 'do' k" := (match e with Some p => k | None => None end) (at level 200, p pattern, e at level 100, k at level 200).
Notation "'guard' b 'do' k" := (if b then k else None) (at level 200, b at level 100, k at level 200).
Definition daysIn (m y : Z) : Z := month_start (is_leap y) (m + 1) - month_start (is_leap y) m.
Definition ymd (s : tx) : option (Z * Z * Z * tx) :=
  get (y, s) <- year4 s do
  get s <- skipc c_point s do
  get (m, s) <- fixed2 s do
  guard (1 <=? m) && (m <=? 12) do
  get s <- skipc c_point s do
  get (d, s) <- fixed2 s do
  Some (y, m, d, s).
(* the day is compared with the month at the end *)
Definition validday (y m d : Z) (r : Z) : option Z := guard (1 <=? d) && (d <=? daysIn m y) do Some r.
Definition layout_date (s : tx) : option Z :=
  get (y, m, d, s) <- ymd s do
  match s with [] => validday y m d (Date y m d 0 0 0) | _ => None end.
Definition hm (s : tx) : option (Z * Z * tx) :=
  get s <- skipc c_T s do
  get (h, s) <- oneOrTwo s do
  guard h <? 24 do
  get s <- skipc c_point s do
  get (mi, s) <- fixed2 s do
  guard mi <? 60 do
  Some (h, mi, s).
Definition layout_minute (s : tx) : option Z :=
  get (y, m, d, s) <- ymd s do
  get (h, mi, s) <- hm s do
  match s with [] => validday y m d (Date y m d h mi 0) | _ => None end.
(* a point and 1 to 9 digits behind the seconds are taken although the layout has none.  More than
   9 digits are treated differently by different versions of Go; they are refused here. *)
Fixpoint digits_num (x : Z) (s : tx) : Z := match s with c :: r => digits_num (x * 10 + (c - 48)) r | [] => x end.
Definition fraction (s : tx) : option (Z * tx) :=
  match s with
  | p :: c :: r =>
      if (p =? c_point) && isdigit c then
        let '(ds, t) := span isdigit (c :: r) in
        guard zlen ds <=? 9 do Some (digits_num 0 ds * 10 ^ (9 - zlen ds), t)
      else Some (0, s)
  | _ => Some (0, s)
  end.
Definition layout_second (s : tx) : option Z :=
  get (y, m, d, s) <- ymd s do
  get (h, mi, s) <- hm s do
  get s <- skipc c_point s do
  get (sec, s) <- fixed2 s do
  guard sec <? 60 do
  get (ns, s) <- fraction s do
  match s with [] => validday y m d (Date y m d h mi sec + ns) | _ => None end.
Definition macron (s : tx) : tx := map (fun c => if c =? c_high then c_minus else c) s.
Definition to_macron (s : tx) : tx := map (fun c => if c =? c_minus then c_high else c) s.
(* time.go:27-39 ParseTime *)
Definition ParseTime (s : tx) : option Z :=
  let s := macron s in
  match layout_date s with
  | Some t => Some t
  | None =>
      match layout_minute s with
      | Some t => Some t
      | None =>
          match layout_second s with
          | Some t => Some t
          | None => option_map (fun d => AddT y0 d) (ParseDuration s)
          end
      end
  end.
(* time.go:49-72 String, without a format of the type; minus is the second result of getformat
   (register.go:100-112): the format of the type starts with -, or PP is below ¯1.  The text of a
   duration is returned only if it is not set (line 53-56). *)
Definition TimeString (minus : bool) (t : Z) : tx :=
  if Before t y1k && negb minus then to_macron (DurationString (SubT t y0)) else StampString t.
