(** Doubles: IEEE 754 binary64 values, what printf's "%.17g" writes and what atof
    reads, and the two API functions built on them.  printf and atof belong to the
    C library, not to the repository: they are modelled here after C11 7.21.6.1
    and 7.22.1.3 in the "C" locale, both correctly rounded (as in glibc). *)
From Coq Require Import QArith Qround.
From Verif Require Import Base Lex Alloc Mem Api.
Open Scope N_scope.

(** Sign, significand and exponent: (-1)^neg * m * 2^e. *)
Inductive double :=
| DFin (neg : bool) (m e : Z)
| DInf (neg : bool)
| DNan (neg : bool).

(** The finite doubles: 53 bits, normalised unless the exponent is the least. *)
Definition is_double (d : double) : Prop :=
  match d with
  | DFin _ m e => (0 <= m < 2 ^ 53 /\ -1074 <= e <= 971 /\ (e = -1074 \/ 2 ^ 52 <= m))%Z
  | _ => True
  end.
Definition finite (d : double) : Prop := match d with DFin _ _ _ => True | _ => False end.

Definition two : Q := 2 # 1.
Definition ten : Q := 10 # 1.
Definition magnitude (m e : Z) : Q := (inject_Z m * two ^ e)%Q.

(** The integer nearest to [q], ties to even. *)
Definition nearest (q : Q) : Z :=
  let f := Qfloor q in
  match Qcompare (q - inject_Z f) (1 # 2) with
  | Lt => f
  | Gt => (f + 1)%Z
  | Eq => if Z.even f then f else (f + 1)%Z
  end.

(** The k with b^k <= q < b^(k+1). *)
Fixpoint zlog (fuel : nat) (b n : Z) : Z :=
  match fuel with
  | O => 0%Z
  | S f => if (n <? b)%Z then 0%Z else (1 + zlog f b (n / b))%Z
  end.
Fixpoint dlog (fuel : nat) (b : Z) (q : Q) : Z :=
  match fuel with
  | O => 0%Z
  | S f => if Qle_bool 1 q then 0%Z else (1 + dlog f b (inject_Z b * q)%Q)%Z
  end.
Definition flog (b : Z) (q : Q) : Z :=
  if Qle_bool 1 q then zlog (S (Z.to_nat (Z.log2 (Qfloor q)))) b (Qfloor q)
  else (- dlog (S (Z.to_nat (Z.log2_up (Z.pos (Qden q))))) b q)%Z.

(** ** "%.17g" *)
(** 17 significant digits as an integer, and the exponent of the first one. *)
Definition digits17 (q : Q) : Z * Z :=
  let x := flog 10 q in
  let d := nearest (q * ten ^ (16 - x)) in
  if (d =? 10 ^ 17)%Z then ((10 ^ 16)%Z, (x + 1)%Z) else (d, x).
(** The [k] last decimal digits of [n]. *)
Fixpoint fdigits (k : nat) (n : Z) : bytes :=
  match k with
  | O => []
  | S k' => (48 + Z.to_N ((n / 10 ^ Z.of_nat k') mod 10)) :: fdigits k' n
  end.
(** %g drops the zeros at the end of the fraction, and then a bare point. *)
Fixpoint strip0 (l : bytes) : bytes :=
  match l with
  | [] => []
  | c :: r => match strip0 r with
              | [] => if c =? 48 then [] else [c]
              | r' => c :: r'
              end
  end.
Definition dotted (f : bytes) : bytes := match f with [] => [] | _ => 46 :: f end.
Definition fraction (l : bytes) : bytes := dotted (strip0 l).
(** The exponent has at least two digits. *)
Definition exponent (x : Z) : bytes :=
  (if (x <? 0)%Z then [45] else [43]) ++
  (if (Z.abs x <? 10)%Z then [48] else []) ++
  dec_digits (S (N.to_nat (N.log2 (Z.abs_N x)))) (Z.abs_N x).
Definition g17_digits (d x : Z) : bytes :=
  let ds := fdigits 17 d in
  if ((-4 <=? x) && (x <? 17))%Z then
    if (0 <=? x)%Z then firstn (Z.to_nat (x + 1)) ds ++ fraction (skipn (Z.to_nat (x + 1)) ds)
    else 48 :: fraction (repeat 48 (Z.to_nat (- x - 1)) ++ ds)
  else firstn 1 ds ++ fraction (skipn 1 ds) ++ 101 :: exponent x.
Definition sign_text (neg : bool) : bytes := if neg then [45] else [].
Definition g17 (d : double) : bytes :=
  match d with
  | DFin neg m e =>
      sign_text neg ++
      (if (m =? 0)%Z then [48] else let (ds, x) := digits17 (magnitude m e) in g17_digits ds x)
  | DInf neg => sign_text neg ++ txt "inf"
  | DNan neg => sign_text neg ++ txt "nan"
  end.

(** ** atof *)
(** The double nearest to [q] >= 0, ties to even; too large: infinity. *)
Definition to_double (neg : bool) (q : Q) : double :=
  if Qeq_bool q 0 then DFin neg 0 (-1074) else
  let e := Z.max (-1074) (flog 2 q - 52) in
  let m := nearest (q * two ^ (- e)) in
  let (m, e) := if (m =? 2 ^ 53)%Z then ((2 ^ 52)%Z, (e + 1)%Z) else (m, e) in
  if (971 <? e)%Z then DInf neg else DFin neg m e.

(** Leading digits and the rest, which must not be beyond readable memory. *)
Fixpoint take_digits (s : bytes) : res (bytes * bytes) :=
  match s with
  | [] => Err EOob
  | c :: r => if digitb c then (x <-? take_digits r ;; Ok (c :: fst x, snd x)) else Ok ([], s)
  end.
Definition dnum (l : bytes) : Z := fold_left (fun acc c => (10 * acc + Z.of_N (c - 48))%Z) l 0%Z.
(** An exponent is read only if it has a digit. *)
Definition atof_exp (s : bytes) : res Z :=
  match s with
  | [] => Err EOob
  | c :: r =>
      if (c =? 101) || (c =? 69) then
        match r with
        | [] => Err EOob
        | g :: r' =>
            x <-? take_digits (if (g =? 43) || (g =? 45) then r' else r) ;;
            Ok (if g =? 45 then (- dnum (fst x))%Z else dnum (fst x))
        end
      else Ok 0%Z
  end.
Definition atof_fraction (s : bytes) : res (bytes * bytes) :=
  match s with
  | [] => Err EOob
  | c :: r => if c =? 46 then take_digits r else Ok ([], s)
  end.
Fixpoint starts (p s : bytes) : bool :=
  match p, s with
  | [], _ => true
  | a :: p', b :: s' => (a =? b) && starts p' s'
  | _, [] => false
  end.
(** Hexadecimal: "0x", hexadecimal digits, possibly with a point, and possibly an
    exponent to base two.  Without a digit only the "0" is read. *)
Definition hexv (c : N) : option Z :=
  if digitb c then Some (Z.of_N (c - 48))
  else if (97 <=? c) && (c <=? 102) then Some (Z.of_N (c - 87))
  else if (65 <=? c) && (c <=? 70) then Some (Z.of_N (c - 55))
  else None.
Fixpoint take_hex (s : bytes) : res (list Z * bytes) :=
  match s with
  | [] => Err EOob
  | c :: r => match hexv c with Some d => (x <-? take_hex r ;; Ok (d :: fst x, snd x)) | None => Ok ([], s) end
  end.
Definition hnum (l : list Z) : Z := fold_left (fun acc d => (16 * acc + d)%Z) l 0%Z.
Definition hex_fraction (s : bytes) : res (list Z * bytes) :=
  match s with
  | [] => Err EOob
  | c :: r => if c =? 46 then take_hex r else Ok ([], s)
  end.
Definition hex_exp (s : bytes) : res Z :=
  match s with
  | [] => Err EOob
  | c :: r =>
      if (c =? 112) || (c =? 80) then
        match r with
        | [] => Err EOob
        | g :: r' =>
            x <-? take_digits (if (g =? 43) || (g =? 45) then r' else r) ;;
            Ok (if g =? 45 then (- dnum (fst x))%Z else dnum (fst x))
        end
      else Ok 0%Z
  end.
Definition atof_hex (neg : bool) (s : bytes) : res double :=
  x <-? take_hex s ;;
  y <-? hex_fraction (snd x) ;;
  match fst x ++ fst y with
  | [] => Ok (DFin neg 0 (-1074))
  | ds => z <-? hex_exp (snd y) ;;
          Ok (to_double neg (inject_Z (hnum ds) * two ^ (z - 4 * Z.of_nat (length (fst y)))))
  end.
Definition is_hex (s : bytes) : bool := match s with a :: c :: _ => (a =? 48) && ((c =? 120) || (c =? 88)) | _ => false end.
Definition atof_magnitude (neg : bool) (s : bytes) : res double :=
  if starts (txt "inf") s then Ok (DInf neg)
  else if starts (txt "nan") s then Ok (DNan neg)
  else if is_hex s then atof_hex neg (skipn 2 s)
  else
    x <-? take_digits s ;;
    y <-? atof_fraction (snd x) ;;
    let ds := fst x ++ fst y in
    match ds with
    | [] => Ok (DFin false 0 (-1074))
    | _ => z <-? atof_exp (snd y) ;;
           Ok (to_double neg (inject_Z (dnum ds) * ten ^ (z - Z.of_nat (length (fst y)))))
    end.
(** Capital INF/NAN are not modelled: the text of a number value starts with a decimal
    digit or with "inf"/"nan" as printed. *)
Definition atof (s0 : bytes) : res double :=
  let s := skip_space s0 in
  match s with
  | [] => Err EOob
  | c :: r => if c =? 45 then atof_magnitude true r
              else if c =? 43 then atof_magnitude false r
              else atof_magnitude false s
  end.

(** zj_SetDouble, zzzjson.h:2306-2320 with zj_doubleToStr 405-408; zj_SetNum 2302-2304 *)
Definition zj_SetDouble (v : addr) (d : double) : M bool := set_printed v 32 32 (g17 d).
Definition zj_SetNum (v : addr) (d : double) : M bool := zj_SetDouble v d.
(** zj_GetDouble, zzzjson.h:1881-1889 with zj_strToDouble 387-391; zj_GetNum 1879.
    The result is the double stored at the returned address. *)
Definition zj_GetDouble (v : addr) : M (option double) :=
  t <- zj_GetDouble_text v ;;
  match t with
  | None => ret None
  | Some b => d <- lift (atof b) ;; ret (Some d)
  end.
Definition zj_GetNum (v : addr) : M (option double) := zj_GetDouble v.
