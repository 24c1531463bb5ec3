(* Prop_Decode.v -- encode and decode (C54). *)
From Coq Require Import Lia.
From Coq Require Import Floats.SpecFloat.
From Verif Require Import Base M_Array S_Array P_Array M_Structural S_Reduce M_Number M_Decode S_Decode M_DecodeNum P_Decode P_Decode3 P_Decode4 P_Decode5 P_Decode6 P_DecodeNum.
Open Scope Z_scope.

(* ---- the specification is the positional system ---- *)
(* the digits are in range, and they are the only ones with the value N mod product L *)
Theorem C54_digits : forall L N, Forall (fun l => 0 < l) L ->
  Forall2 (fun l d => 0 <= d < l) L (digits L N) /\ value L (digits L N) = N mod product L /\
  forall D, Forall2 (fun l d => 0 <= d < l) L D -> value L D = N mod product L -> D = digits L N.
Proof.
  intros L N HL. split; [apply digits_in; exact HL|]. split; [apply value_digits; exact HL|]. intros D HD HV. rewrite <- (digits_unique L HL D HD), HV.
  rewrite <- (value_digits L N HL). apply digits_unique; [exact HL|apply digits_in; exact HL].
Qed.

Section C54.
  Context {V : Type} (ops : arith V) (den : V -> Z -> Prop) (B : Z).

  (* L⊤R for an array L whose first axis holds the radices: the result has the axes of
     L and then those of R; the digits of N are along the first axis *)
  Theorem C54_encode : forall nil al R la ra n lr, exact_arith ops den B ->
    stands den (Arr al) la -> stands den R ra -> dims la = n :: lr -> 0 < n -> (exists J, inb (dims ra) J) ->
    (forall I N, inb lr I -> In N (elems ra) -> representable B (line la 0 n I) N) ->
    exists res z, encode ops nil (Arr al) R = Ok (Arr res) /\ stands den (Arr res) z /\ dims z = dims la ++ dims ra /\
      forall d I J N, inb (dims la) (d :: I) -> inb (dims ra) J -> elem ra J = Some N ->
        elem z (d :: I ++ J) = znth (digits (line la 0 n I) N) d.
  Proof. intros nil al R la ra n lr E. apply encode_arr_ok with (1 := E). Qed.

  (* L⊤N for a vector L and a number N, when any radix may be 0: the digit there is all that is
     left, and the digits before it are 0 *)
  Lemma digits_zero L : digits L 0 = map (fun _ => 0) L.
  Proof. induction L as [|l L IH]; cbn [digits map]; [reflexivity|]. rewrite IH. f_equal. Qed.
  Lemma digits_last L l N : Forall (fun x => 0 <= x) L -> 0 <= l -> digits (L ++ [l]) N = digits L (N / l) ++ [N mod l].
  Proof.
    intros HL Hl. induction HL as [|x L Hx HL IH]; cbn [digits app]; [change (product []) with 1; rewrite Z.div_1_r; reflexivity|].
    rewrite IH. f_equal. f_equal.
    assert (P : 0 <= product L) by (clear - HL; induction HL; [change (product []) with 1; lia|]; rewrite product_cons; nia).
    assert (E : product (L ++ [l]) = product L * l) by (rewrite product_app, product_cons; change (product []) with 1; rewrite Z.mul_1_r; reflexivity).
    rewrite E. destruct (Z.eq_dec l 0) as [->|]; [rewrite Z.mul_0_r, !Zdiv_0_r, Zdiv_0_l; reflexivity|].
    destruct (Z.eq_dec (product L) 0) as [->|]; [rewrite Z.mul_0_l, !Zdiv_0_r; reflexivity|]. rewrite Z.mul_comm. symmetry. apply Z.div_div; lia.
  Qed.
  Lemma evs_zero (E : exact_arith ops den B) : forall L Ls rest c N acc, Forall2 den Ls L -> Forall (fun l => 0 <= l <= B /\ Z.abs N + l <= B) L ->
    den c N -> Z.abs N <= B -> exists Zs, evs_loop ops (Ls ++ rest) (length Ls) c acc = Ok (Zs ++ acc) /\ Forall2 den Zs (digits L N).
  Proof.
    induction L as [|l L IH] using rev_ind; intros Ls rest c N acc HL HB Hc HN.
    - inversion HL; subst. exists []. split; [reflexivity|constructor].
    - apply Forall2_app_inv_r in HL as (Ls1 & Ls2 & HL1 & HL2 & ->). inversion HL2 as [|x ? ? ? Hx HL3]; subst. inversion HL3; subst.
      apply Forall_app in HB as [HB HBl]. inversion HBl as [|? ? (Hl0 & HNl) _]; subst.
      assert (HLe : Forall (fun y => 0 <= y) L) by (eapply Forall_impl; [|exact HB]; cbn; intros; lia).
      rewrite app_length. cbn [length]. rewrite Nat.add_1_r. cbn [evs_loop]. rewrite <- app_assoc. cbn [app].
      rewrite (zat_app Ls1 x rest) by reflexivity. cbn [obind].
      destruct (ex_mod _ _ _ E x c l N Hx Hc ltac:(lia) HN ltac:(lia)) as (v & Ev & Dv). rewrite Ev. cbn [obind].
      rewrite (ex_zerop _ _ _ E x l Hx ltac:(lia)). cbn [obind].
      assert (Hq : exists q, (if l =? 0 then Ok (a_int ops 0) else (let* d := a_sub ops c v in a_div ops d x)) = Ok q /\ den q (N / l) /\ Z.abs (N / l) <= Z.abs N).
      { destruct (l =? 0) eqn:Zl.
        - assert (l = 0) by lia. subst l. exists (a_int ops 0). rewrite Zdiv_0_r. split; [reflexivity|]. split; [apply (ex_int _ _ _ E); lia|lia].
        - assert (Hp : 0 < l) by lia. pose proof (Z.mod_pos_bound N l Hp) as Hm. pose proof (Z.div_mod N l ltac:(lia)) as Dm.
          destruct (ex_sub _ _ _ E c v N (N mod l) Hc Dv HN ltac:(lia) ltac:(lia)) as (d & Ed & Dd). rewrite Ed. cbn [obind].
          replace (N - N mod l) with (N / l * l) in Dd by lia.
          destruct (ex_div _ _ _ E d x (N / l) l Dd Hx Hp ltac:(lia) ltac:(lia)) as (q & Eq & Dq). exists q. split; [exact Eq|]. split; [exact Dq|nia]. }
      destruct Hq as (q & Eq & Dq & Hq). rewrite Eq. cbn [obind].
      destruct (IH Ls1 (x :: rest) q (N / l) (v :: acc) HL1) as (Zs & EZ & DZ); [eapply Forall_impl; [|exact HB]; cbn; intros; lia|exact Dq|lia|].
      exists (Zs ++ [v]). split; [rewrite EZ, <- app_assoc; reflexivity|]. rewrite digits_last by (auto; lia). apply Forall2_app; [exact DZ|constructor; [exact Dv|constructor]].
  Qed.
  Theorem C54_zero_radix : forall nil Ls L r N, exact_arith ops den B -> Ls <> [] -> Forall2 den Ls L -> den r N ->
    Forall (fun l => 0 <= l /\ Z.abs N + l <= B) L ->
    exists Zs, encode ops nil (Arr (vec Ls)) (Scal r) = Ok (Arr (vec Zs)) /\ Forall2 den Zs (digits L N).
  Proof.
    intros nil Ls L r N E NE HL Hr HB. cbn [encode vec dims elems]. change (zlen [zlen Ls] =? 1) with true. cbn iota.
    assert (HN : Z.abs N <= B). { destruct HL; [congruence|]. inversion HB; lia. }
    destruct (evs_zero E L Ls [] r N [] HL) as (Zs & EZ & DZ); [eapply Forall_impl; [|exact HB]; cbn; intros; lia|exact Hr|exact HN|].
    rewrite app_nil_r in EZ. unfold encodeVecScalar. rewrite EZ, app_nil_r. exists Zs. split; [reflexivity|exact DZ].
  Qed.

  (* l⊤R for a single radix: the residues *)
  Theorem C54_encode_scalar : forall nil l k, exact_arith ops den B -> den l k -> 0 <= k <= B ->
    (forall r N, den r N -> Z.abs N <= B -> exists v, encode ops nil (Scal l) (Scal r) = Ok (Scal v) /\ den v (N mod k)) /\
    (forall a za, stands den (Arr a) za -> Forall (fun N => Z.abs N <= B) (elems za) ->
       exists b, encode ops nil (Scal l) (Arr a) = Ok b /\ stands den b (mkArr (dims za) (map (fun N => N mod k) (elems za)))).
  Proof.
    intros nil l k E Hl Hk. split.
    - intros r N Hr HN. cbn [encode]. destruct (ex_mod _ _ _ E l r k N Hl Hr) as (v & Ev & Dv); [lia|lia|lia|]. rewrite Ev. cbn. eauto.
    - intros a za (W & D & HE) HB. cbn [encode].
      assert (HM : exists vs, mapM (a_mod ops l) (elems a) = Ok vs /\ Forall2 den vs (map (fun N => N mod k) (elems za))).
      { revert HB. clear W D. induction HE as [|x z xs zs Hx HX IH]; intros HB; [exists []; split; [reflexivity|constructor]|]. inversion HB; subst.
        destruct (ex_mod _ _ _ E l x k z Hl Hx) as (v & Ev & Dv); [lia|lia|lia|]. destruct IH as (vs & E2 & D2); [assumption|]. exists (v :: vs). cbn [mapM map]. rewrite Ev. cbn [obind]. rewrite E2. cbn. split; [reflexivity|constructor; assumption]. }
      destruct HM as (vs & EM & DM). rewrite EM. cbn [obind]. eexists. split; [reflexivity|]. cbn [stands dims elems]. split; [|split; [exact D|exact DM]].
      split; [apply W|]. split; [apply W|]. cbn [dims elems]. rewrite (Forall2_zlen _ _ _ DM), zlen_map, <- (Forall2_zlen _ _ _ HE). apply W.
  Qed.

  (* L⊥R: along the last axis of L the radices, along the first axis of R the digits; a
     single radix or digit is used for all positions *)
  Theorem C54_decode : forall L R la ra lr rr m k n, exact_arith ops den B ->
    stands den L la -> stands den R ra -> dims (promote la) = lr ++ [m] -> dims (promote ra) = k :: rr ->
    (m = n /\ k = n) \/ (m = 1 /\ k = n) \/ (m = n /\ k = 1) -> 0 < n -> 1 <= B -> (exists J, inb rr J) ->
    (forall I J, inb lr I -> inb rr J -> bounded B (fit n (line (promote la) (zlen lr) m I)) (fit n (line (promote ra) 0 k J))) ->
    exists w z, decode ops L R = Ok w /\ stands den w z /\ dims z = lr ++ rr /\
      forall I J, inb lr I -> inb rr J ->
        elem z (I ++ J) = Some (value (fit n (line (promote la) (zlen lr) m I)) (fit n (line (promote ra) 0 k J))).
  Proof. intros L R la ra lr rr m k n E. apply decode_ok with (1 := E). Qed.

  (* shapes that do not fit are an error *)
  Theorem C54_decode_shape : forall L R m k lr rr,
    dims (toArray L) = lr ++ [m] -> dims (toArray R) = k :: rr -> m <> k -> m <> 1 -> k <> 1 -> decode ops L R = Err.
  Proof.
    intros L R m k lr rr HL HR H1 H2 H3. unfold decode. rewrite HL, HR, zlen_app. change (zlen [m]) with 1. replace (zlen lr + 1 - 1) with (zlen lr) by lia.
    rewrite zat_app by reflexivity. cbn [obind]. rewrite zat_0. cbn [obind]. replace (m =? k) with false by lia. replace (m =? 1) with false by lia. replace (k =? 1) with false by lia. reflexivity.
  Qed.

  (* L⊥L⊤R is R modulo the product of the radices (modulo 0 is no reduction: the first
     radix may be 0) *)
  Theorem C54_inverse : forall nil al R la ra, exact_arith ops den B ->
    stands den (Arr al) la -> stands den R ra -> zlen (dims la) = 1 -> elems la <> [] ->
    1 <= B -> product (elems la) <= B -> (exists J, inb (dims ra) J) -> (forall N, In N (elems ra) -> representable B (elems la) N) ->
    exists v w, encode ops nil (Arr al) R = Ok v /\ decode ops (Arr al) v = Ok w /\
      stands den w (mkArr (dims ra) (map (fun N => N mod product (elems la)) (elems ra))).
  Proof. intros nil al R la ra E. apply inverse_ok with (1 := E). Qed.
End C54.

(* the default number tower computes exactly with the integers up to 2^52 in absolute
   value, whether they are given as Bool, Int or Float *)
Theorem C54_default : forall C T (cM : methods C) (tM : methods T) f2c c2t,
  exact_arith (tower_ops (dM cM tM) (dT f2c c2t)) dden (2 ^ 52).
Proof. intros. apply default_exact. Qed.

(* L⊥L⊤N is N on the default tower for 0 <= N < product L up to 2^51 *)
Theorem C54_default_inverse : forall C T (cM : methods C) (tM : methods T) f2c c2t nil L N,
  L <> [] -> Forall (fun l => 0 < l) L -> product L <= 2 ^ 51 -> 0 <= N < product L ->
  exists v w,
    encode (tower_ops (dM cM tM) (dT f2c c2t)) nil (Arr (vec (map (fun l => VNum (NI l)) L))) (Scal (VNum (NI N))) = Ok v /\
    decode (tower_ops (dM cM tM) (dT f2c c2t)) (Arr (vec (map (fun l => VNum (NI l)) L))) v = Ok (Scal w) /\
    dden w N.
Proof.
  intros C T cM tM f2c c2t nil L N Hne HL HP HN.
  destruct (C54_inverse (tower_ops (dM cM tM) (dT f2c c2t)) dden (2 ^ 52) nil (vec (map (fun l => VNum (NI l)) L)) (Scal (VNum (NI N))) (vec L) (mkArr [] [N])) as (v & w & H1 & H2 & H3).
  - apply default_exact.
  - split; [split; [discriminate|]; cbn; split; [constructor; [apply zlen_nonneg|constructor]|lia]|]. cbn. split; [f_equal; apply zlen_map|]. clear. induction L; cbn; constructor; auto. reflexivity.
  - exists N. split; [reflexivity|reflexivity].
  - reflexivity.
  - exact Hne.
  - lia.
  - cbn [elems vec]. lia.
  - exists []. constructor.
  - cbn [elems vec In]. intros N' [<-|[]]. destruct L as [|l L]; [congruence|]. inversion HL as [|? ? Hl HL']; subst. pose proof (product_pos L HL'). change (product (l :: L)) with (l * product L) in *. unfold representable. cbn [radix hd tl]. split; [split; [lia|exact HL']|]. nia.
  - cbn [elems vec dims map] in H3. rewrite Z.mod_small in H3 by lia. exists v. destruct w as [w| |w]; [|destruct H3|destruct H3 as ((H3 & _) & H4 & _); cbn in H4; congruence].
    exists w. split; [exact H1|]. split; [exact H2|]. destruct H3 as (N' & Hw & HN'). inversion HN'; subst. exact Hw.
Qed.

(* beyond that the doubles of the residue lose digits *)
Theorem C54_large_refuted : forall C T (cM : methods C) (tM : methods T) f2c c2t nil,
  let L := [2 ^ 59; 3] in let N := 2 ^ 60 + 1 in
  0 <= N < product L /\
  exists v w,
    encode (tower_ops (dM cM tM) (dT f2c c2t)) nil (Arr (vec (map (fun l => VNum (NI l)) L))) (Scal (VNum (NI N))) = Ok v /\
    decode (tower_ops (dM cM tM) (dT f2c c2t)) (Arr (vec (map (fun l => VNum (NI l)) L))) v = Ok (Scal (VNum (NT (DF w)))) /\
    f_to_int w <> N.
Proof.
  intros. split; [vm_compute; split; [discriminate|reflexivity]|]. eexists. eexists. split; [vm_compute; reflexivity|]. split; [vm_compute; reflexivity|vm_compute; discriminate].
Qed.

(* 1760 3 12⊤75 is 2 0 3, and 24 60 60⊥2 46 40 is 10000 *)
Example C54_example : forall C T (cM : methods C) (tM : methods T) f2c c2t nil,
  let ops := tower_ops (dM cM tM) (dT f2c c2t) in
  let v l := Arr (vec (map (fun z => VNum (NI z)) l)) in
  (exists r, encode ops nil (v [1760; 3; 12]) (Scal (VNum (NI 75))) = Ok (Arr r) /\ stands dden (Arr r) (vec [2; 0; 3])) /\
  decode ops (v [24; 60; 60]) (v [2; 46; 40]) = Ok (Scal (VNum (NI 10000))) /\
  decode ops (Scal (VNum (NI 2))) (v [1; 0; 1; 1]) = Ok (Scal (VNum (NI 11))) /\
  representable (2 ^ 52) [1760; 3; 12] 75 /\ digits [1760; 3; 12] 75 = [2; 0; 3].
Proof.
  intros. split; [|split; [vm_compute; reflexivity|split; [vm_compute; reflexivity|split; [|vm_compute; reflexivity]]]].
  - exists (vec [vF (S754_finite false 4503599627370496 (-51)); vF (S754_zero false); vF (S754_finite false 6755399441055744 (-51))]).
    split; [vm_compute; reflexivity|]. split; [split; [discriminate|split; [repeat constructor; discriminate|reflexivity]]|]. split; [reflexivity|]. repeat constructor.
  - unfold representable. cbn. split; [split; [lia|repeat constructor]|lia].
Qed.
Print Assumptions C54_digits.
Print Assumptions C54_encode.
Print Assumptions C54_zero_radix.
Print Assumptions C54_inverse.
Print Assumptions C54_default_inverse.
Print Assumptions C54_large_refuted.
