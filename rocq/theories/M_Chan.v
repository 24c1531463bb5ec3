(* M_Chan.v -- channels: the goroutines of apl/channel.go, apl/primitives/channel.go, take.go,
   rho.go and apl/operators/reduce.go, each.go, rank.go (sendParseSubArray), and Go's unbuffered channels.

   A Channel (apl/channel.go:20) is a pair of unbuffered Go channels: values come out of
   Data c (c[0]), requests and the cancellation go into Ctl c (c[1]).
   A goroutine is a state machine: between two operations on channels it runs
   uninterrupted.  Functions that are applied to values are taken as functions of the
   values: concurrent access to the interpreter's variables is not modelled.
   The demo channels of apl/xgo/register.go are in M_Demo. Not modelled: the delay of channelDelay
   (an Apply of the identity). *)
From Verif Require Import Base.
From Coq Require Import List Bool Arith Lia.
Import ListNotations.
Open Scope list_scope.
Open Scope nat_scope.

Inductive port := Data (c : nat) | Ctl (c : nat).
Lemma port_dec : forall a b : port, {a = b} + {a <> b}.
Proof. decide equality; apply Nat.eq_dec. Defined.

Section Chan.
  Context {V : Type}.
  (* the Error value, EmptyArray, the result of closing, the elements of a value (all
     elements of an array, the value itself otherwise), and the array with a shape *)
  Context (errV emptyV oneV : V) (isEmpty : V -> bool) (ravel : V -> list V) (pack : list nat -> list V -> V).
  Definition func := option V -> V -> outcome V.

  (* ---------- goroutines ---------- *)
  (* what a goroutine does next: a select with cases (None: the channel is closed) *)
  Inductive branch (P : Type) := BRecv (p : port) (k : option V -> P) | BSend (p : port) (v : V) (k : P).
  Inductive act (P : Type) := Done | Crash | DoClose (p : port) (k : P) | Sel (bs : list (branch P)).
  Arguments BRecv {P}. Arguments BSend {P}. Arguments Done {P}. Arguments Crash {P}. Arguments DoClose {P}. Arguments Sel {P}.

  (* the left argument of Apply: none, a value or a channel *)
  Inductive left := LVal (v : option V) | LChan (l : nat).
  Inductive astate := ALoop | AGot (v : V) | ASend (w : V) | AError | ACloseR (then_l : bool) | ACloseL.
  Inductive sstate := SLoop | SSend (v : V) | SCloseR.
  Inductive rstate := RLoop (acc : list V) | RSend (acc es : list V) | RBroken (acc es : list V) | RCloseIn.
  (* <⍤k C: the strings read so far; complete values that wait to be sent *)
  Inductive cstate := CLoop (got : list V) | CSend (v : V) (vs : list V) (got : list V) (eof : bool)
    | CClose (got : list V) | CAgain | CFail.
  (* the operations of the main program on a channel *)
  Inductive op := Take (c : nat) | Show (c : nat) | TakeN (c : nat) (shape : list nat) | CloseC (c : nat)
    | Reduce (f : func) (c : nat) | ScanC (f : func) (c : nat) | SendC (c : nat) (v : V).
  Inductive mstate := MIdle | MTake (c : nat) | MShow (c : nat) | MTakeN (c : nat) (shape : list nat) (got : list V)
    | MClose (c : nat) (res : outcome V) | MDrain (c : nat) (res : outcome V)
    | MReduce (f : func) (c : nat) (acc : option V) | MScan (f : func) (c : nat) (acc : list V) | MSend (c : nat) (v : V).
  Inductive proc :=
  | PEnd                                                       (* returned *)
  | PCrash                                                     (* an unrecovered panic *)
  | PClose (c : nat)                                           (* the deferred close(c[0]) *)
  | PSend (c : nat) (vs : list V)                              (* SendAll *)
  | POnce (c : nat) (v : V)                                    (* <[0] R *)
  | PRepeat (c : nat) (v : V) (n : option nat)                 (* <[n] R; None: until it is closed *)
  | PLines (c : nat) (lines : list V)                          (* LineReader *)
  | PApply (c r : nat) (l : left) (f : func) (filt : bool) (st : astate)
  | PScope (c r : nat) (out : list V) (st : sstate)            (* ⎕←C, with what is printed *)
  | PRho (c r : nat) (shape : list nat) (st : rstate)          (* L⍴C *)
  | PCells (c r : nat) (scan : list V -> bool -> list V) (st : cstate)   (* sendParseSubArray *)
  | PCopy (l r : nat) (st : sstate)                            (* channelCopy *)
  | PMain (st : mstate) (ops : list op) (log : list (outcome V)).

  (* apl/channel.go:126-148 SendAll *)
  Definition sendall (c : nat) (vs : list V) : proc := match vs with [] => PClose c | _ => PSend c vs end.
  (* apl/channel.go:111-119 in Apply, after the values for f are there *)
  Definition apply_call (c r : nat) (l : left) (f : func) (filt : bool) (lv : option V) (v : V) : proc :=
    match f lv v with
    | Ok w => PApply c r l f filt (if filt && isEmpty w then ALoop else ASend w)
    | Err => PApply c r l f filt AError
    | Panic => PCrash
    end.
  (* primitives/channel.go:28-32 channelSource: how often <[ax] R sends R, where ax comes from
     splitAxis with the origin subtracted.  0: POnce, negative: until it is closed. *)
  Definition source_count (ax : option Z) (origin : Z) : Z := (match ax with None => 1 | Some x => x end + origin)%Z.
  Definition source (c : nat) (v : V) (n : Z) : proc :=
    if (n =? 0)%Z then POnce c v else PRepeat c v (if (n <? 0)%Z then None else Some (Z.to_nat n)).
  (* primitives/rho.go:92-96 newarray, 104-119 push: the elements es of a value are stored
     one by one; the array with p = size is sent.  After a send that did not happen the
     array is still full and the next store is out of range. *)
  Definition chunk_size (shape : list nat) : nat := fold_right Nat.mul 1 shape.
  Fixpoint rho_push (c r : nat) (shape : list nat) (acc es : list V) : proc :=
    match es with
    | [] => PRho c r shape (RLoop acc)
    | e :: es' =>
        if chunk_size shape <=? length acc then PCrash
        else let acc' := acc ++ [e] in
        if length acc' =? chunk_size shape then PRho c r shape (RSend acc' es') else rho_push c r shape acc' es'
    end.
  (* operators/rank.go:290-315 sendParseSubArray.  scan got eof are the values that are found in
     the strings got, before the scanner asks for the next string (eof = false) or when there are
     no more (eof = true).  An error of the scanner, which sends an Error and returns without
     closing its input, is not modelled: the text is readable. *)
  Definition cells_push (c r : nat) (scan : list V -> bool -> list V) (got : list V) (eof : bool) (vs : list V) : proc :=
    match vs with
    | [] => if eof then PClose c else PCells c r scan (CLoop got)
    | v :: vs' => PCells c r scan (CSend v vs' got eof)
    end.
  Definition cells_more (c r : nat) (scan : list V -> bool -> list V) (got : list V) (v : V) : proc :=
    cells_push c r scan (got ++ [v]) false (skipn (length (scan got false)) (scan (got ++ [v]) false)).
  Definition cells_finish (c r : nat) (scan : list V -> bool -> list V) (got : list V) : proc :=
    cells_push c r scan got true (skipn (length (scan got false)) (scan got true)).
  (* the next operation of the main program *)
  Definition start (o : op) : mstate :=
    match o with
    | Take c => MTake c | Show c => MShow c | TakeN c shape => MTakeN c shape [] | CloseC c => MClose c (Ok oneV)
    | Reduce f c => MReduce f c None | ScanC f c => MScan f c [] | SendC c v => MSend c v
    end.
  Definition main_next (ops : list op) (log : list (outcome V)) : proc :=
    match ops with [] => PMain MIdle [] log | o :: ops' => PMain (start o) ops' log end.

  Definition next (p : proc) : act proc :=
    match p with
    | PEnd => Done
    | PCrash => Crash
    | PClose c => DoClose (Data c) PEnd
    (* apl/channel.go:135-147 *)
    | PSend c [] => Done
    | PSend c (v :: vs) =>
        Sel [BRecv (Ctl c) (fun o => match o with None => PClose c | Some _ => p end);
             BSend (Data c) v (sendall c vs)]
    (* primitives/channel.go:35-41: one send, nothing is closed *)
    | POnce c v => Sel [BSend (Data c) v PEnd]
    (* primitives/channel.go:43-61; the counter i is at least 1 when it is compared to n *)
    | PRepeat c v n =>
        Sel [BRecv (Ctl c) (fun o => match o with None => PClose c | Some _ => p end);
             BSend (Data c) v (match n with None => p | Some n => if n <=? 1 then PClose c else PRepeat c v (Some (n - 1)) end)]
    (* apl/channel.go:150-169 LineReader: the break leaves the select, not the loop *)
    | PLines c [] => DoClose (Data c) PEnd
    | PLines c (v :: vs) => Sel [BRecv (Ctl c) (fun _ => PLines c vs); BSend (Data c) v (PLines c vs)]
    (* apl/channel.go:83-124 Apply *)
    | PApply c r l f filt ALoop =>
        Sel [BRecv (Ctl c) (fun o => match o with None => PApply c r l f filt (ACloseR true) | Some _ => p end);
             BRecv (Data r) (fun o => match o with
                                      | None => match l with LChan _ => PApply c r l f filt ACloseL | LVal _ => PClose c end
                                      | Some v => match l with LChan _ => PApply c r l f filt (AGot v) | LVal lv => apply_call c r l f filt lv v end
                                      end)]
    | PApply c r l f filt (AGot v) =>
        match l with LChan lc => Sel [BRecv (Data lc) (fun o => apply_call c r l f filt o v)] | LVal _ => Done end
    | PApply c r l f filt (ASend w) => Sel [BSend (Data c) w (PApply c r l f filt ALoop)]
    | PApply c r l f filt AError => Sel [BSend (Data c) errV (PApply c r l f filt (ACloseR false))]
    | PApply c r l f filt (ACloseR b) =>
        DoClose (Ctl r) (match l with LChan _ => if b then PApply c r l f filt ACloseL else PClose c | LVal _ => PClose c end)
    | PApply c r l f filt ACloseL => match l with LChan lc => DoClose (Ctl lc) (PClose c) | LVal _ => Done end
    (* apl/channel.go:45-75 Scope *)
    | PScope c r out SLoop =>
        Sel [BRecv (Ctl c) (fun o => match o with None => PScope c r out SCloseR | Some _ => p end);
             BRecv (Data r) (fun o => match o with None => PClose c | Some v => PScope c r (out ++ [v]) (SSend v) end)]
    | PScope c r out (SSend v) =>
        Sel [BRecv (Ctl c) (fun o => match o with None => PScope c r out SCloseR | Some _ => PScope c r out SLoop end);
             BSend (Data c) v (PScope c r out SLoop)]
    | PScope c r out SCloseR => DoClose (Ctl r) (PClose c)
    (* primitives/rho.go:101-140 *)
    | PRho c r shape (RLoop acc) =>
        Sel [BRecv (Ctl c) (fun o => match o with None => PRho c r shape RCloseIn | Some _ => p end);
             BRecv (Data r) (fun o => match o with None => PClose c | Some v => rho_push c r shape acc (ravel v) end)]
    | PRho c r shape (RSend acc es) =>
        Sel [BRecv (Ctl c) (fun o => match o with None => PRho c r shape (RBroken acc es) | Some _ => rho_push c r shape acc es end);
             BSend (Data c) (pack shape acc) (rho_push c r shape [] es)]
    | PRho c r shape (RBroken acc es) => DoClose (Ctl r) (rho_push c r shape acc es)
    | PRho c r shape RCloseIn => DoClose (Ctl r) (PClose c)
    (* apl/channel.go:226-253 ReadRune with an empty buffer: a value on the control channel of
       the result is the end of the text (the empty buffer gives io.EOF) *)
    | PCells c r scan (CLoop got) =>
        Sel [BRecv (Ctl c) (fun o => match o with None => PCells c r scan (CClose got) | Some _ => cells_finish c r scan got end);
             BRecv (Data r) (fun o => match o with None => cells_finish c r scan got | Some v => cells_more c r scan got v end)]
    (* operators/rank.go:305-311: the select looks at the control channel of the input *)
    | PCells c r scan (CSend v vs got eof) =>
        Sel [BRecv (Ctl r) (fun o => match o with None => PClose c | Some _ => cells_push c r scan got eof vs end);
             BSend (Data c) v (cells_push c r scan got eof vs)]
    (* the result has been closed: ReadRune closes the control channel of the input and returns
       io.ErrClosedPipe; ScanRankArray (apl/fmt.go:199-236) looks only for io.EOF and goes on to
       scan a number.  After some text that rune is unread and is no number, or it is ScanNumber
       that has got the error: an Error is sent.  Before any text ReadRune is called again and
       looks again at both channels. *)
    | PCells c r scan (CClose got) => DoClose (Ctl r) (match got with [] => PCells c r scan CAgain | _ => PCells c r scan CFail end)
    | PCells c r scan CAgain =>
        Sel [BRecv (Ctl c) (fun o => match o with None => PCells c r scan (CClose []) | Some _ => PCells c r scan CFail end);
             BRecv (Data r) (fun o => match o with None => PCells c r scan CFail | Some v => cells_more c r scan [] v end)]
    (* operators/rank.go:302-303 *)
    | PCells c r scan CFail => Sel [BSend (Data c) errV (PClose c)]
    (* primitives/channel.go:64-92 channelCopy; it runs in the main program, which is not
       modelled further here *)
    | PCopy l r SLoop =>
        Sel [BRecv (Ctl l) (fun o => match o with None => PCopy l r SCloseR | Some _ => p end);
             BRecv (Data r) (fun o => match o with None => PClose l | Some v => PCopy l r (SSend v) end)]
    | PCopy l r (SSend v) =>
        Sel [BRecv (Ctl l) (fun o => match o with None => PCopy l r SCloseR | Some _ => PCopy l r SLoop end);
             BSend (Data l) v (PCopy l r SLoop)]
    | PCopy l r SCloseR => DoClose (Ctl r) (PClose l)
    (* the main program *)
    | PMain MIdle ops log => Done
    (* primitives/take.go:270-277 takeChannel1 *)
    | PMain (MTake c) ops log =>
        Sel [BRecv (Data c) (fun o => main_next ops (log ++ [match o with Some v => Ok v | None => Err end]))]
    (* apl/eval.go:43-53: a statement with a channel as its value writes all values *)
    | PMain (MShow c) ops log =>
        Sel [BRecv (Data c) (fun o => match o with None => main_next ops log | Some v => PMain (MShow c) ops (log ++ [Ok v]) end)]
    (* primitives/take.go:279-303 takeChannel2, for a shape of positive numbers *)
    | PMain (MTakeN c shape got) ops log =>
        Sel [BRecv (Data c) (fun o => match o with
                                      | None => main_next ops (log ++ [Err])
                                      | Some v => let got' := got ++ [v] in
                                          if length got' =? chunk_size shape then main_next ops (log ++ [Ok (pack shape got')])
                                          else PMain (MTakeN c shape got') ops log
                                      end)]
    (* apl/channel.go:38-43 Close: close(c[1]), then drain c[0]; primitives/take.go:312-316 *)
    | PMain (MClose c res) ops log => DoClose (Ctl c) (PMain (MDrain c res) ops log)
    | PMain (MDrain c res) ops log => Sel [BRecv (Data c) (fun o => match o with None => main_next ops (log ++ [res]) | Some _ => p end)]
    (* operators/reduce.go:664-688 reduceChannel *)
    | PMain (MReduce f c acc) ops log =>
        Sel [BRecv (Data c) (fun o => match o with
                                      | None => PMain (MClose c (Ok (match acc with None => emptyV | Some a => a end))) ops log
                                      | Some v => match acc with
                                          | None => PMain (MReduce f c (Some v)) ops log
                                          | Some a => match f (Some a) v with
                                              | Ok w => PMain (MReduce f c (Some w)) ops log
                                              | Err => PMain (MClose c Err) ops log
                                              | Panic => main_next ops (log ++ [Panic])
                                              end
                                          end
                                      end)]
    (* operators/reduce.go:340-363 scanChannel *)
    | PMain (MScan f c acc) ops log =>
        Sel [BRecv (Data c) (fun o => match o with
                                      | None => PMain (MClose c (Ok (match acc with [] => emptyV | _ => pack [length acc] acc end))) ops log
                                      | Some v => match rev acc with
                                          | [] => PMain (MScan f c [v]) ops log
                                          | a :: _ => match f (Some a) v with
                                              | Ok w => PMain (MScan f c (acc ++ [w])) ops log
                                              | Err => PMain (MClose c Err) ops log
                                              | Panic => main_next ops (log ++ [Panic])
                                              end
                                          end
                                      end)]
    (* primitives/take.go:305-310 sendChannel *)
    | PMain (MSend c v) ops log => Sel [BSend (Ctl c) v (main_next ops (log ++ [Ok v]))]
    end.

  (* ---------- Go: goroutines over unbuffered channels ---------- *)
  Record sys := mkSys { procs : list proc; closed : list port }.
  Definition upd {A} (l : list A) (i : nat) (x : A) : list A := firstn i l ++ match skipn i l with [] => [] | _ :: t => x :: t end.
  Inductive label := Comm (i j : nat) (p : port) (v : V) | Eof (j : nat) (p : port) | Closes (i : nat) (p : port).
  Inductive step : sys -> label -> sys -> Prop :=
  (* i sends v on p to j *)
  | st_comm ps cl i j p v k g P Q bs bs' : i <> j -> nth_error ps i = Some P -> nth_error ps j = Some Q ->
      next P = Sel bs -> In (BSend p v k) bs -> next Q = Sel bs' -> In (BRecv p g) bs' -> ~ In p cl ->
      step (mkSys ps cl) (Comm i j p v) (mkSys (upd (upd ps i k) j (g (Some v))) cl)
  (* j receives from a closed channel *)
  | st_eof ps cl j p g Q bs : nth_error ps j = Some Q -> next Q = Sel bs -> In (BRecv p g) bs -> In p cl ->
      step (mkSys ps cl) (Eof j p) (mkSys (upd ps j (g None)) cl)
  | st_close ps cl i p k P : nth_error ps i = Some P -> next P = DoClose p k -> ~ In p cl ->
      step (mkSys ps cl) (Closes i p) (mkSys (upd ps i k) (p :: cl)).
  (* a goroutine panics, which ends the whole program: close or send on a closed channel *)
  Inductive crashes : sys -> Prop :=
  | cr_panic ps cl i P : nth_error ps i = Some P -> next P = Crash -> crashes (mkSys ps cl)
  | cr_close ps cl i p k P : nth_error ps i = Some P -> next P = DoClose p k -> In p cl -> crashes (mkSys ps cl)
  | cr_send ps cl i p v k P bs : nth_error ps i = Some P -> next P = Sel bs -> In (BSend p v k) bs -> In p cl -> crashes (mkSys ps cl).
  Inductive run : sys -> list label -> sys -> Prop :=
  | run_nil s : run s [] s
  | run_snoc s t s1 l s2 : run s t s1 -> step s1 l s2 -> run s (t ++ [l]) s2.
End Chan.
Arguments BRecv {V P}. Arguments BSend {V P}. Arguments Done {V P}. Arguments Crash {V P}. Arguments DoClose {V P}. Arguments Sel {V P}.
Arguments proc V : clear implicits. Arguments func V : clear implicits. Arguments sys V : clear implicits. Arguments label V : clear implicits.
Arguments op V : clear implicits. Arguments left V : clear implicits. Arguments mstate V : clear implicits. Arguments astate V : clear implicits.
Arguments sstate V : clear implicits. Arguments cstate V : clear implicits. Arguments rstate V : clear implicits. Arguments act V P : clear implicits. Arguments branch V P : clear implicits.
