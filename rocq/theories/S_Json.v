(* S_Json.v -- JSON texts (RFC 8259) without optional white space, and what they denote. *)
From Verif Require Import Base M_Array S_Array M_Scan S_TimeText M_Json.
Open Scope Z_scope.

Inductive jvalue := JInt (z : Z) | JNum (t : text) | JStr (s : text) | JArr (l : list jvalue) | JObj (l : list (text * jvalue)).

Definition digits (t : text) : Prop := t <> [] /\ Forall (fun c => 48 <= c <= 57) t.
(* int = zero / digit1-9 *digit *)
Definition json_int (t : text) : Prop := t = [48] \/ exists c s, t = c :: s /\ 49 <= c <= 57 /\ Forall (fun c => 48 <= c <= 57) s.
(* number = [minus] int [frac] [exp] *)
Definition json_number (t : text) : Prop :=
  exists m i f e, t = m ++ i ++ f ++ e /\ (m = [] \/ m = [45]) /\ json_int i
    /\ (f = [] \/ exists d, f = 46 :: d /\ digits d)
    /\ (e = [] \/ exists c s d, e = c :: s ++ d /\ (c = 101 \/ c = 69) /\ (s = [] \/ s = [43] \/ s = [45]) /\ digits d).

Definition hexval (c : Z) : Z := if c <=? 57 then c - 48 else if c <=? 70 then c - 55 else c - 87.
Definition ishex (c : Z) : Prop := 48 <= c <= 57 \/ 65 <= c <= 70 \/ 97 <= c <= 102.
Definition hex4 (t : text) (z : Z) : Prop := exists a b c d, t = [a; b; c; d] /\ ishex a /\ ishex b /\ ishex c /\ ishex d
  /\ z = ((hexval a * 16 + hexval b) * 16 + hexval c) * 16 + hexval d.
(* the runes between the quotes *)
Inductive json_chars : text -> text -> Prop :=
| jc_nil : json_chars [] []
| jc_plain r t s : 32 <= r -> r <> 34 -> r <> 92 -> json_chars t s -> json_chars (r :: t) (r :: s)
| jc_esc c r t s : In (c, r) [(34, 34); (92, 92); (47, 47); (98, 8); (102, 12); (110, 10); (114, 13); (116, 9)] ->
    json_chars t s -> json_chars (92 :: c :: t) (r :: s)
| jc_u h z t s : hex4 h z -> ~ 55296 <= z <= 57343 -> json_chars t s -> json_chars (92 :: 117 :: h ++ t) (z :: s)
| jc_pair h1 h2 z1 z2 t s : hex4 h1 z1 -> hex4 h2 z2 -> 55296 <= z1 <= 56319 -> 56320 <= z2 <= 57343 -> json_chars t s ->
    json_chars (92 :: 117 :: h1 ++ 92 :: 117 :: h2 ++ t) (65536 + (z1 - 55296) * 1024 + (z2 - 56320) :: s).
Inductive json_string : text -> text -> Prop :=
| js_intro t s : json_chars t s -> json_string (34 :: t ++ [34]) s.

Inductive json : text -> jvalue -> Prop :=
| json_integer t : json_int t -> json t (JInt (value t))
| json_minus t : json_int t -> json (45 :: t) (JInt (- value t))
| json_num t : json_number t -> json t (JNum t)
| json_str t s : json_string t s -> json t (JStr s)
| json_arr t l : json_values t l -> json (91 :: t ++ [93]) (JArr l)
| json_obj t l : json_members t l -> json (123 :: t ++ [125]) (JObj l)
with json_values : text -> list jvalue -> Prop :=
| jv_none : json_values [] []
| jv_one t j : json t j -> json_values t [j]
| jv_more t j u l : json t j -> json_values u l -> l <> [] -> json_values (t ++ 44 :: u) (j :: l)
with json_members : text -> list (text * jvalue) -> Prop :=
| jm_none : json_members [] []
| jm_one k s t j : json_string k s -> json t j -> json_members (k ++ 58 :: t) [(s, j)]
| jm_more k s t j u l : json_string k s -> json t j -> json_members u l -> l <> [] -> json_members ((k ++ 58 :: t) ++ 44 :: u) ((s, j) :: l).

(* the nested lists of an array: one list per axis, the first axis outermost *)
Fixpoint nested (ds : list Z) (js : list jvalue) : jvalue :=
  match ds with
  | [] => JArr []
  | [_] => JArr js
  | d :: ds' => JArr (map (fun i => nested ds' (firstn (Z.to_nat (size ds')) (skipn (Z.to_nat (i * size ds')) js))) (zseq d))
  end.
(* a rune with a JSON escape, or printable; or not printable with four hexadecimal digits (newer Go
   releases, del, write the rune 127 in another way) *)
Definition json_rune (IsPrint : Z -> bool) (del : bool) (r : Z) : Prop :=
  IsPrint r = true \/ In r [8; 9; 10; 12; 13; 34; 92] \/ (128 <= r < 65536 /\ ~ 55296 <= r <= 57343) \/ (r = 127 /\ del = false).
(* what a value denotes *)
Inductive denotes (IsPrint : Z -> bool) (del : bool) : wval -> jvalue -> Prop :=
| d_int z : 0 <= z < 2 ^ 63 -> denotes IsPrint del (WInt z) (JInt z)
| d_other t : json_number t -> denotes IsPrint del (WOther t) (JNum t)
| d_str s : Forall (json_rune IsPrint del) s -> denotes IsPrint del (WStr s) (JStr s)
| d_arr ds es js : ds <> [] -> Forall (fun d => 0 <= d) ds -> zlen es = size ds -> Forall2 (denotes IsPrint del) es js -> denotes IsPrint del (WArr ds es) (nested ds js)
| d_list l js : Forall2 (denotes IsPrint del) l js -> denotes IsPrint del (WList l) (JArr js)
| d_dict ks vs js : Forall (Forall (json_rune IsPrint del)) ks -> length ks = length vs -> Forall2 (denotes IsPrint del) vs js ->
    denotes IsPrint del (WDict (combine (map WStr ks) vs)) (JObj (combine ks js)).
(* the printable runes: strconv.IsPrint says so for ASCII, and no control character or surrogate is one *)
Definition ascii_print (IsPrint : Z -> bool) : Prop :=
  (forall r, 0 <= r < 128 -> IsPrint r = ((32 <=? r) && (r <? 127))) /\ (forall r, IsPrint r = true -> 32 <= r <= 1114111 /\ ~ 55296 <= r <= 57343).
(* the runes a Go string may hold *)
Definition rune (r : Z) : Prop := 0 <= r <= 1114111 /\ ~ 55296 <= r <= 57343.
