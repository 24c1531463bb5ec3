(* M_Listing.v -- model of the directories of variables and of the environment, as they are read:
   Apl.Vars (apl/var.go:123-146), varfs.Open (apl/io/var.go:83-133) and envfs.Open (apl/io/env.go:83-103).

   Names and texts are lists of runes (M_Mount has them as bytes): UTF-8 keeps the order of strings, so
   sort.Strings orders the runes.  A Go map is a list of its entries in the order of an iteration. *)
From Verif Require Import Base M_Array M_Scan M_Strings M_Format M_Tabs.

Definition r_slash := 47. Definition r_arrow := 8594. Definition r_question := 63. Definition r_equal := 61.

(* ---------- sort.Strings ---------- *)
Fixpoint text_leb (a b : text) : bool :=
  match a, b with
  | [], _ => true
  | _ :: _, [] => false
  | x :: a', y :: b' => if x <? y then true else if y <? x then false else text_leb a' b'
  end.
(* library model: some sort of the names; insertion sort, the result of which is the same *)
Fixpoint insert_text (x : text) (l : list text) : list text :=
  match l with [] => [x] | y :: r => if text_leb x y then x :: l else y :: insert_text x r end.
Definition sort_texts (l : list text) : list text := fold_right insert_text [] l.

Fixpoint text_eqb (a b : text) : bool :=
  match a, b with [], [] => true | x :: a', y :: b' => (x =? y) && text_eqb a' b' | _, _ => false end.
Fixpoint get {A} (n : text) (m : list (text * A)) : option A :=
  match m with [] => None | (k, v) :: r => if text_eqb k n then Some v else get n r end.

Section Listing.
  Context {V : Type} (show info : V -> text).
  (* apl.go env and pkg: the maps of the packages, of the innermost environment, and of the ones around it *)
  Record space := mkSpace { packs : list (text * list (text * V)); inner : list (text * V); outer : list (list (text * V)) }.

  (* var.go:123-146 Vars *)
  Definition Vars (w : space) (pkg : text) : outcome (list text) :=
    match pkg with
    | [] => Ok (sort_texts (map (fun p => fst p ++ [r_slash]) (packs w) ++ map fst (inner w)))
    | _ => match get pkg (packs w) with None => Err | Some e => Ok (sort_texts (map fst e)) end
    end.
  (* strings.Index(name, arrow): what is before and behind the first arrow *)
  Fixpoint cut_arrow (name : text) : option (text * text) :=
    match name with
    | [] => None
    | r :: s => if r =? r_arrow then Some ([], s) else match cut_arrow s with Some (a, b) => Some (r :: a, b) | None => None end
    end.
  (* var.go:148-160 packageVar *)
  Definition packageVar (w : space) (name : text) : option V :=
    match cut_arrow name with
    | None => None
    | Some (p, v) => match get p (packs w) with None => None | Some e => get v e end
    end.
  Fixpoint find_env (es : list (list (text * V))) (name : text) : option V :=
    match es with [] => None | e :: es' => match get name e with Some v => Some v | None => find_env es' name end end.
  (* var.go:91-119 Lookup; the names of the index origin and the printing precision, which are stored in no
     environment, are left out *)
  Definition LookupVar (w : space) (name : text) : option V :=
    match cut_arrow name with Some _ => packageVar w name | None => find_env (inner w :: outer w) name end.

  Definition ends_slash (s : text) : bool := match rev s with r :: _ => r =? r_slash | [] => false end.
  (* strings.TrimSuffix(name, slash) *)
  Definition trim_slash (s : text) : text := if ends_slash s then removelast s else s.
  (* io/var.go:97-110 the second column: the type of a variable with the shape of an array and the number of
     bytes of a string (the function info) *)
  Definition var_info (w : space) (varname : text) : text :=
    if ends_slash varname then [] else match LookupVar w varname with None => [r_question] | Some x => info x end.
  (* io/var.go:84-115 list *)
  Definition varList (w : space) (name mpt : text) : outcome text :=
    let pkg := trim_slash name in
    let* l := Vars w pkg in
    let pre := match pkg with [] => [] | _ => pkg ++ [r_arrow] end in
    Ok (tabwrite false (concat (map (fun n => let varname := pre ++ n in (mpt ++ varname) ++ [r_tab] ++ var_info w varname ++ [r_newline]) l))).
  (* io/var.go:83, 116-132 varfs.Open *)
  Definition varOpen (w : space) (name mpt : text) : outcome text :=
    match name with
    | [] => varList w name mpt
    | _ => if ends_slash name then varList w name mpt else match LookupVar w name with Some x => Ok (show x) | None => Err end
    end.
End Listing.

(* strings.Replace(s, equal sign, tab, 1) *)
Fixpoint tab_for_equal (s : text) : text :=
  match s with [] => [] | r :: s' => if r =? r_equal then r_tab :: s' else r :: tab_for_equal s' end.
(* io/env.go:83-103 envfs.Open; the environment is a list of names and values.  library model: os.Environ
   has a text name=value for each, os.LookupEnv finds the value *)
Definition envOpen (env : list (text * text)) (name mpt : text) : outcome text :=
  match name with
  | [] => Ok (tabwrite false (concat (map (fun kv : text * text => let (k, v) := kv in (mpt ++ tab_for_equal (k ++ [r_equal] ++ v)) ++ [r_newline]) env)))
  | _ => match get name env with Some v => Ok v | None => Err end
  end.
