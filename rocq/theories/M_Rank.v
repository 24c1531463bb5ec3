(* M_Rank.v -- the rank operator with two arguments: apl/operators/rank.go (the monadic form and the
   helper functions are in M_Operators). *)
From Verif Require Import Base M_Array M_Structural M_Operators Eff.

(* rank.go:190-286 the results are brought to a common shape and joined *)
Definition assemble {A} (zero : A) (frame : list Z) (results : list (val A)) : outcome (val A) :=
  let common := common_shape results in
  let* cells := mapM (conform zero common) results in
  let resdims := frame ++ common in
  if Prod resdims <? 0 then Panic else
  match common with
  | [] => if negb (zlen results =? Prod resdims) then Err else Ok (Arr (mkArr resdims (concat cells)))
  | _ => let* l := mapM (fun c => mapM (zat c) (zseq (Prod common))) cells in Ok (Arr (mkArr resdims (concat l)))
  end.
(* rank.go:24-157 the dyadic call.  A left argument that is not an array is a nil interface whose
   Shape is called (lines 69-70): a panic. *)
Definition rank2 {St A} (zero : A) (f : val A -> val A -> eff St (val A)) (ai : list Z) (L R : val A) : eff St (val A) :=
  match rank_pqr ai with
  | None => efail
  | Some (p, q, r) =>
    match R, L with
    | Scal _, _ => efail
    | _, Scal _ => epanic
    | _, _ =>
      let ar := asArr R in
      let al := asArr L in
      let q := if q <? 0 then q + zlen (dims al) else q in
      if (q <? 0) || (zlen (dims al) <? q) then efail else
      let r := if r <? 0 then r + zlen (dims ar) else r in
      if (r <? 0) || (zlen (dims ar) <? r) then efail else
      let! fl := elift (rank_frame al q) in
      let! fr := elift (rank_frame ar r) in
      let ml := Prod fl in
      let mr := Prod fr in
      if negb (ml =? mr) && (0 <? ml) && (0 <? mr) then efail else
      let m := if ml <? mr then mr else ml in
      let frame := if mr =? 0 then fl else fr in
      let! results := mapE (fun i =>
          let! subl := if ml =? 0 then eret L else elift (subcell al q i) in
          let! subr := if mr =? 0 then eret R else elift (subcell ar r i) in
          f subl subr) (zseq m) in
      elift (assemble zero frame results)
    end
  end.
