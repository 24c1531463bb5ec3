(* M_Rpc.v -- model of remote procedure calls: apl/rpc.

   The network delivers messages in order and loses none while the connection is open.  The
   encoding is gob: a field with its zero value (an empty string, a nil interface) is not sent, and
   a field that is not received keeps the value it has; interfaces can be sent if their dynamic
   type is registered (rpc/gob.go: sendable).  The evaluation of the function's text and its call
   are parameters, with the state of the server's interpreter.  server.go is not covered by the
   recover of eval.go: a panic ends the server. *)
From Verif Require Import Base.

Section Rpc.
  Context {V Fn text St : Type} (empty : text) (teqb : text -> text -> bool) (sendable : V -> bool).
  (* server.go:66-78 parsing and evaluating the text to a function; calling it *)
  Context (func_of : text -> St -> outcome Fn * St) (apply : Fn -> option V -> V -> St -> outcome V * St).

  (* server.go:34-42 Request; Response is Err, or Ok with a value *)
  Record request := mkRequest { q_fn : text; q_L : option V; q_R : option V }.
  Definition zero_request : request := mkRequest empty None None.
  (* gob.Decode(&req) into the request of the call before *)
  Definition or_else {A} (x y : option A) : option A := match x with Some _ => x | None => y end.
  Definition decode (old msg : request) : request :=
    mkRequest (if teqb (q_fn msg) empty then q_fn old else q_fn msg) (or_else (q_L msg) (q_L old)) (or_else (q_R msg) (q_R old)).
  (* server.go:65-79 exec *)
  Definition exec (req : request) (s : St) : outcome V * St :=
    match q_R req with
    | None => (Err, s)
    | Some r => match func_of (q_fn req) s with
                | (Ok f, s) => apply f (q_L req) r s
                | (Err, s) => (Err, s)
                | (Panic, s) => (Panic, s)
                end
    end.
  (* a connection: is it open, the variable req of the server's handle, the interpreter, and does
     the server still run *)
  Record conn := mkConn { c_open : bool; c_req : request; c_state : St; c_alive : bool }.
  Definition dialed (s : St) : conn := mkConn true zero_request s true.
  Definition sends (v : option V) : bool := match v with Some v => sendable v | None => true end.
  (* rpc.go:43-60 Call, with the round of server.go:44-63 handle that answers it *)
  Definition Call (f : text) (L R : option V) (c : conn) : outcome V * conn :=
    let closed s alive req := mkConn false req s alive in
    if negb (c_open c) || negb (sends L && sends R) then (Err, closed (c_state c) (c_alive c) (c_req c)) else
    let req := decode (c_req c) (mkRequest f L R) in
    match exec req (c_state c) with
    | (Ok v, s) => if sendable v then (Ok v, mkConn true req s true) else (Err, closed s true req)
    | (Err, s) => (Err, mkConn true req s true)
    | (Panic, s) => (Err, closed s false req)
    end.
  (* a client's session *)
  Fixpoint calls (l : list (text * option V * V)) (c : conn) : list (outcome V) * conn :=
    match l with
    | [] => ([], c)
    | (f, L, R) :: l' => let (r, c) := Call f L (Some R) c in
                         let (rs, c) := calls l' c in (r :: rs, c)
    end.
  (* register.go:34-66 the argument of rpc→call: a list of values, that may be a connection, a
     string or another value *)
  Inductive lvalue := LConn (c : nat) | LStr (f : text) | LVal (v : V).
  Definition call_args (as_value : lvalue -> V) (R : option (list lvalue)) : outcome (nat * text * option V * V) :=
    match R with
    | None => Err
    | Some l =>
        if zlen l <? 3 then Err else if 4 <? zlen l then Err else
        match l with
        | LConn c :: LStr f :: x :: y => match y with
                                         | [] => Ok (c, f, None, as_value x)
                                         | y :: _ => Ok (c, f, Some (as_value x), as_value y)
                                         end
        | _ => Err
        end
    end.
End Rpc.
