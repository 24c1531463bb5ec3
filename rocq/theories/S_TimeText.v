(* S_TimeText.v -- vocabulary for the texts of times. *)
From Verif Require Import Base M_Time S_Time.
Open Scope Z_scope.

(* the number a row of decimal digits stands for *)
Definition value (s : list Z) : Z := fold_left (fun x c => 10 * x + (c - 48)) s 0.
(* s is the number n in k decimal digits *)
Definition numeral (k n : Z) (s : list Z) : Prop := zlen s = k /\ Forall (fun c => 48 <= c <= 57) s /\ value s = n.
(* s is yyyy.mm.dd (46 is the point) *)
Definition date_text (y m d : Z) (s : list Z) : Prop :=
  exists sy sm sd, numeral 4 y sy /\ numeral 2 m sm /\ numeral 2 d sd /\ s = sy ++ [46] ++ sm ++ [46] ++ sd.
(* the day d of the month m of the year y exists *)
Definition real_day (first : Z -> Z) (y m d : Z) : Prop :=
  1 <= m <= 12 /\ 1 <= d <= month_first first y (m + 1) - month_first first y m.
(* s is the time of day behind a date: nothing, Thh.mm, Thh.mm.ss or Thh.mm.ss.f with 1 to 9 digits f; the
   hour may have one digit (84 is T) *)
Definition clock_text (h mi sec ns : Z) (s : list Z) : Prop :=
  (s = [] /\ h = 0 /\ mi = 0 /\ sec = 0 /\ ns = 0)
  \/ (exists sh sm r, (numeral 1 h sh \/ numeral 2 h sh) /\ numeral 2 mi sm /\ s = [84] ++ sh ++ [46] ++ sm ++ r
      /\ ((r = [] /\ sec = 0 /\ ns = 0)
          \/ exists ss r', numeral 2 sec ss /\ r = [46] ++ ss ++ r'
             /\ ((r' = [] /\ ns = 0) \/ exists k v f, 1 <= k <= 9 /\ numeral k v f /\ r' = [46] ++ f /\ ns = v * 10 ^ (9 - k)))).
(* the moment *)
Definition moment (first : Z -> Z) (y m d h mi sec ns : Z) : Z :=
  midnight (month_first first y m + d - 1) + ((h * 60 + mi) * 60 + sec) * 1000000000 + ns.
