(* M_Demo.v -- the demonstration channels go→source and go→echo
   (apl/xgo/register.go:57-88 source, 91-138 echo), with a main program that uses them.

   A transition system of its own: the main program and the goroutine of the channel. The
   operations of the main program are those of M_Chan: Take (↑C, primitives/take.go:270-277),
   Show (apl/eval.go:43-53), SendC (take.go:305-310), CloseC (apl/channel.go:38-43). The number of
   the channel is ignored. Both sides may be late, so the default case of source is possible
   whenever the control channel is not closed. *)
From Verif Require Import Base M_Chan.
From Coq Require Import List Bool Arith.
Import ListNotations.
Open Scope list_scope.
Open Scope nat_scope.

Section Demo.
  Context {V : Type} (oneV : V) (num : nat -> V) (str : list Z -> V) (show : V -> list Z).
  (* "empty stack" *)
  Definition empty_stack : list Z := [101; 109; 112; 116; 121; 32; 115; 116; 97; 99; 107]%Z.

  (* the goroutine: at the select (i is the loop variable), blocked in the send of the default
     case; the loop of echo with buf and s; before close(c[0]); returned *)
  Inductive gor := GPoll (n i : nat) | GSend (n i : nat) | GEcho (p : list Z) (buf : list V) (s : list Z) | GClose | GEnd.
  (* register.go:67-77 and 99-105: the arguments; None is a value of another type (or a number that
     is no index) *)
  Definition source_call (R : option Z) : outcome gor :=
    match R with Some n => if (n <=? 0)%Z then Err else Ok (GPoll (Z.to_nat n) 0) | None => Err end.
  Definition echo_call (R : option (list Z)) : outcome gor :=
    match R with None | Some [] => Err | Some p => Ok (GEcho p [] empty_stack) end.
  (* register.go:114-121 *)
  Definition echo_put (p : list Z) (buf : list V) (s : list Z) (v : V) : gor :=
    let buf := buf ++ [v] in GEcho p buf (if length buf =? 1 then p ++ show v else s).
  (* register.go:122-132 *)
  Definition echo_get (p : list Z) (buf : list V) (s : list Z) : gor :=
    if 1 <? length buf then
      let buf := tl buf in GEcho p buf (match buf with v :: _ => p ++ show v | [] => s end)
    else if length buf =? 1 then GEcho p [] (p ++ empty_stack)
    else GEcho p buf s.

  (* the main program: the operations that remain, and the drain of Close *)
  Record demo := mkDemo { drains_ : bool; todo : list (op V); got : list (outcome V); gor_ : gor; ctl_closed : bool; data_closed : bool }.
  Definition begin (g : gor) (ops : list (op V)) : demo := mkDemo false ops [] g false false.

  Inductive move : demo -> demo -> Prop :=
  (* source, register.go:78-88 *)
  | mv_end n i d ops log c1 c0 : n <= i -> move (mkDemo d ops log (GPoll n i) c1 c0) (mkDemo d ops log GClose c1 c0)
  | mv_cancel n i d ops log c0 : i < n -> move (mkDemo d ops log (GPoll n i) true c0) (mkDemo d ops log GClose true c0)
  | mv_told n i c v ops log c0 : i < n -> move (mkDemo false (SendC c v :: ops) log (GPoll n i) false c0) (mkDemo false ops (log ++ [Ok v]) GClose false c0)
  | mv_default n i d ops log c0 : i < n -> move (mkDemo d ops log (GPoll n i) false c0) (mkDemo d ops log (GSend n i) false c0)
  | mv_take n i c ops log c1 : move (mkDemo false (Take c :: ops) log (GSend n i) c1 false) (mkDemo false ops (log ++ [Ok (num i)]) (GPoll n (S i)) c1 false)
  | mv_show n i c ops log c1 : move (mkDemo false (Show c :: ops) log (GSend n i) c1 false) (mkDemo false (Show c :: ops) (log ++ [Ok (num i)]) (GPoll n (S i)) c1 false)
  | mv_drop n i ops log c1 : move (mkDemo true ops log (GSend n i) c1 false) (mkDemo true ops log (GPoll n (S i)) c1 false)
  (* echo, register.go:111-135 *)
  | mv_hear p buf s c v ops log c0 : move (mkDemo false (SendC c v :: ops) log (GEcho p buf s) false c0) (mkDemo false ops (log ++ [Ok v]) (echo_put p buf s v) false c0)
  | mv_echo_cancel p buf s d ops log c0 : move (mkDemo d ops log (GEcho p buf s) true c0) (mkDemo d ops log GClose true c0)
  | mv_echo_take p buf s c ops log c1 : move (mkDemo false (Take c :: ops) log (GEcho p buf s) c1 false) (mkDemo false ops (log ++ [Ok (str s)]) (echo_get p buf s) c1 false)
  | mv_echo_show p buf s c ops log c1 : move (mkDemo false (Show c :: ops) log (GEcho p buf s) c1 false) (mkDemo false (Show c :: ops) (log ++ [Ok (str s)]) (echo_get p buf s) c1 false)
  | mv_echo_drop p buf s ops log c1 : move (mkDemo true ops log (GEcho p buf s) c1 false) (mkDemo true ops log (echo_get p buf s) c1 false)
  (* close(c[0]) *)
  | mv_close d ops log c1 : move (mkDemo d ops log GClose c1 false) (mkDemo d ops log GEnd c1 true)
  (* the main program: values of a closed channel, Close *)
  | mv_take_eof c ops log g c1 : move (mkDemo false (Take c :: ops) log g c1 true) (mkDemo false ops (log ++ [Err]) g c1 true)
  | mv_show_eof c ops log g c1 : move (mkDemo false (Show c :: ops) log g c1 true) (mkDemo false ops log g c1 true)
  | mv_main_close c ops log g c0 : move (mkDemo false (CloseC c :: ops) log g false c0) (mkDemo true ops log g true c0)
  | mv_drained ops log g c1 : move (mkDemo true ops log g c1 true) (mkDemo false ops (log ++ [Ok oneV]) g c1 true).
  (* a panic: close or send on a closed control channel, a second close(c[0]) *)
  Inductive demo_crash : demo -> Prop :=
  | dc_close c ops log g c0 : demo_crash (mkDemo false (CloseC c :: ops) log g true c0)
  | dc_send c v ops log g c0 : demo_crash (mkDemo false (SendC c v :: ops) log g true c0)
  | dc_twice d ops log c1 : demo_crash (mkDemo d ops log GClose c1 true).
  Inductive moves : demo -> demo -> Prop :=
  | moves_refl s : moves s s
  | moves_step s1 s2 s3 : moves s1 s2 -> move s2 s3 -> moves s1 s3.
End Demo.
Arguments gor V : clear implicits. Arguments demo V : clear implicits.
