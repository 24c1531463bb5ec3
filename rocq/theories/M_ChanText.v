(* M_ChanText.v -- ChannelReader and RuneScanner (apl/channel.go:171-260): the text of a
   channel of strings.  Simplified: the channel is the list of the strings that it will
   deliver (Prop_Chan.v), it is not cancelled meanwhile; the text of a string is a list of
   characters of any type (bytes for ChannelReader, runes for RuneScanner: the strings
   are valid UTF-8).  bytes.Buffer is modelled by its unread part. *)
From Coq Require Import List Bool Arith.
From Verif Require Import Base.
Import ListNotations.
Open Scope list_scope.
Open Scope nat_scope.

Section Text.
  Context {C : Type} (nl : C).
  (* what a read returns: data, or io.EOF *)
  Inductive got := Got (cs : list C) | EOF.

  (* ---------- ChannelReader ---------- *)
  Record creader := mkR { rchan : list (list C); rbuf : list C; first : bool; rclosed : bool }.
  (* apl/channel.go:171-177 NewChannelReader: first is not set *)
  Definition new_reader (ss : list (list C)) : creader := mkR ss [] false false.
  (* bytes.Buffer.Read(p) with len(p) = n *)
  Definition buf_read (n : nat) (b : list C) : got * list C :=
    match b with [] => (match n with 0 => Got [] | _ => EOF end, []) | _ => (Got (firstn n b), skipn n b) end.
  (* apl/channel.go:189-217 Read *)
  Definition read (n : nat) (r : creader) : got * creader :=
    let r1 :=
      if rclosed r then r
      else if length (rbuf r) <? 1024 then
        match rchan r with
        | [] => mkR [] (rbuf r) (first r) true
        | s :: ss => mkR ss (rbuf r ++ (if first r then [] else [nl]) ++ s) false false
        end
      else r in
    let (g, b) := buf_read n (rbuf r1) in (g, mkR (rchan r1) b (first r1) (rclosed r1)).

  (* ---------- RuneScanner ---------- *)
  Record scanner := mkS { schan : list (list C); sbuf : list C; last : option C; started : bool }.
  Definition new_scanner (ss : list (list C)) : scanner := mkS ss [] None false.
  (* apl/channel.go:229-256 ReadRune, then bytes.Buffer.ReadRune *)
  Definition read_rune (s : scanner) : option C * scanner :=
    let pop s := match sbuf s with [] => (None, mkS (schan s) [] None (started s)) | c :: b => (Some c, mkS (schan s) b (Some c) (started s)) end in
    match sbuf s with
    | [] =>
        match schan s with
        | [] => (None, s)
        | t :: ts => pop (mkS ts ((if started s then [nl] else []) ++ t) None true)
        end
    | _ => pop s
    end.
  (* apl/channel.go:257-259 UnreadRune *)
  Definition unread_rune (s : scanner) : outcome scanner :=
    match last s with Some c => Ok (mkS (schan s) (c :: sbuf s) None (started s)) | None => Err end.
End Text.
Arguments got C : clear implicits. Arguments creader C : clear implicits. Arguments scanner C : clear implicits.
