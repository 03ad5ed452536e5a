(** Specification: JSON texts (RFC 8259), the values they denote, the compact
    printer, the minifier, and the meaning of string escapes.  Nothing here
    refers to the model of the code. *)
From Verif Require Import Base.

(** ** Values.  Strings, keys and numbers are kept as written (the bytes between
    the quotes, the digits of the number). *)
Inductive json :=
| JNull
| JBool (b : bool)
| JNum (text : bytes)
| JStr (body : bytes)
| JArr (elems : list json)
| JObj (members : list (bytes * json)).

(** ** Characters *)
Definition is_ws (c : N) : Prop := c = 32 \/ c = 9 \/ c = 10 \/ c = 13.
Definition ws (w : bytes) : Prop := Forall is_ws w.
Definition is_digit (c : N) : Prop := 48 <= c <= 57.

Definition hexval (c : N) : option N :=
  if (48 <=? c) && (c <=? 57) then Some (c - 48)
  else if (65 <=? c) && (c <=? 70) then Some (c - 55)
  else if (97 <=? c) && (c <=? 102) then Some (c - 87)
  else None.

(** Four hexadecimal digits and the number they denote. *)
Definition hex4 (a b c d : N) (v : N) : Prop :=
  exists x y z t, hexval a = Some x /\ hexval b = Some y /\ hexval c = Some z /\
    hexval d = Some t /\ v = 4096 * x + 256 * y + 16 * z + t.

Definition high_surrogate (v : N) : Prop := 55296 <= v <= 56319.   (* D800..DBFF *)
Definition low_surrogate  (v : N) : Prop := 56320 <= v <= 57343.   (* DC00..DFFF *)

(** ** UTF-8 (RFC 3629) *)
Definition utf8 (cp : N) : bytes :=
  if cp <? 128 then [cp]
  else if cp <? 2048 then [192 + cp / 64; 128 + cp mod 64]
  else if cp <? 65536 then [224 + cp / 4096; 128 + (cp / 64) mod 64; 128 + cp mod 64]
  else [240 + cp / 262144; 128 + (cp / 4096) mod 64; 128 + (cp / 64) mod 64; 128 + cp mod 64].

(** The two-character escapes and what they stand for. *)
Definition short_escape (c : N) : option N :=
  if c =? 34 then Some 34          (* quotation mark *)
  else if c =? 92 then Some 92     (* reverse solidus *)
  else if c =? 47 then Some 47     (* solidus *)
  else if c =? 98 then Some 8      (* b *)
  else if c =? 102 then Some 12    (* f *)
  else if c =? 110 then Some 10    (* n *)
  else if c =? 114 then Some 13    (* r *)
  else if c =? 116 then Some 9     (* t *)
  else None.

(** [decodes body out]: [body] is a valid string body (the bytes between the
    quotes; every surrogate escape paired) and denotes the bytes [out]. *)
Inductive decodes : bytes -> bytes -> Prop :=
| dec_nil : decodes [] []
| dec_plain c r o : 32 <= c -> c <> 34 -> c <> 92 -> decodes r o -> decodes (c :: r) (c :: o)
| dec_short c x r o : short_escape c = Some x -> decodes r o -> decodes (92 :: c :: r) (x :: o)
| dec_u a b c d v r o : hex4 a b c d v -> ~ high_surrogate v -> ~ low_surrogate v ->
    decodes r o -> decodes (92 :: 117 :: a :: b :: c :: d :: r) (utf8 v ++ o)
| dec_pair a b c d a' b' c' d' v v' r o :
    hex4 a b c d v -> high_surrogate v -> hex4 a' b' c' d' v' -> low_surrogate v' ->
    decodes r o ->
    decodes (92 :: 117 :: a :: b :: c :: d :: 92 :: 117 :: a' :: b' :: c' :: d' :: r)
            (utf8 (65536 + (v - 55296) * 1024 + (v' - 56320)) ++ o).

Definition strbody (b : bytes) : Prop := exists o, decodes b o.

(** ** Numbers *)
Definition int_part (i : bytes) : Prop :=
  i = [48] \/ exists d ds, 49 <= d <= 57 /\ Forall is_digit ds /\ i = d :: ds.
Definition frac_part (f : bytes) : Prop :=
  f = [] \/ exists ds, ds <> [] /\ Forall is_digit ds /\ f = 46 :: ds.
Definition exp_part (e : bytes) : Prop :=
  e = [] \/ exists e0 sg ds, (e0 = 101 \/ e0 = 69) /\ (sg = [] \/ sg = [43] \/ sg = [45]) /\
    ds <> [] /\ Forall is_digit ds /\ e = e0 :: sg ++ ds.
Definition number (n : bytes) : Prop :=
  exists sg i f e, (sg = [] \/ sg = [45]) /\ int_part i /\ frac_part f /\ exp_part e /\
    n = sg ++ i ++ f ++ e.

(** ** Grammar.  [jvalue t j]: [t], without surrounding whitespace, is a JSON
    value denoting [j].  [jelems]/[jmembers]: one or more elements / members
    with their surrounding whitespace and separating commas. *)
Inductive jvalue : bytes -> json -> Prop :=
| jv_null : jvalue (txt "null") JNull
| jv_true : jvalue (txt "true") (JBool true)
| jv_false : jvalue (txt "false") (JBool false)
| jv_num n : number n -> jvalue n (JNum n)
| jv_str b : strbody b -> jvalue (34 :: b ++ [34]) (JStr b)
| jv_arr0 w : ws w -> jvalue (91 :: w ++ [93]) (JArr [])
| jv_arr t js : jelems t js -> jvalue (91 :: t ++ [93]) (JArr js)
| jv_obj0 w : ws w -> jvalue (123 :: w ++ [125]) (JObj [])
| jv_obj t ms : jmembers t ms -> jvalue (123 :: t ++ [125]) (JObj ms)
with jelems : bytes -> list json -> Prop :=
| je_one w1 t w2 j : ws w1 -> jvalue t j -> ws w2 -> jelems (w1 ++ t ++ w2) [j]
| je_cons w1 t w2 j r js : ws w1 -> jvalue t j -> ws w2 -> jelems r js ->
    jelems (w1 ++ t ++ w2 ++ 44 :: r) (j :: js)
with jmembers : bytes -> list (bytes * json) -> Prop :=
| jm_one w1 k w2 w3 t w4 j : ws w1 -> strbody k -> ws w2 -> ws w3 -> jvalue t j -> ws w4 ->
    jmembers (w1 ++ 34 :: k ++ 34 :: w2 ++ 58 :: w3 ++ t ++ w4) [(k, j)]
| jm_cons w1 k w2 w3 t w4 j r ms : ws w1 -> strbody k -> ws w2 -> ws w3 -> jvalue t j -> ws w4 ->
    jmembers r ms ->
    jmembers (w1 ++ 34 :: k ++ 34 :: w2 ++ 58 :: w3 ++ t ++ w4 ++ 44 :: r) ((k, j) :: ms).

(** A JSON text: a value with optional whitespace around it. *)
Definition json_text (t : bytes) (j : json) : Prop :=
  exists w1 b w2, ws w1 /\ jvalue b j /\ ws w2 /\ t = w1 ++ b ++ w2.

(** ** Compact printing *)
Fixpoint commas (l : list bytes) : bytes :=
  match l with
  | [] => []
  | [x] => x
  | x :: r => x ++ 44 :: commas r
  end.

Fixpoint print (j : json) : bytes :=
  match j with
  | JNull => txt "null"
  | JBool true => txt "true"
  | JBool false => txt "false"
  | JNum t => t
  | JStr b => 34 :: b ++ [34]
  | JArr l => 91 :: commas (map print l) ++ [93]
  | JObj l => 123 :: commas (map (fun kv => let '(k, v) := kv in
                                  34 :: k ++ 34 :: 58 :: print v) l) ++ [125]
  end.

(** ** Minification: drop whitespace outside string literals. *)
Inductive mmode := Outside | InString | AfterBackslash.

Fixpoint minify_from (m : mmode) (t : bytes) : bytes :=
  match t with
  | [] => []
  | c :: r =>
      match m with
      | Outside =>
          if (c =? 32) || (c =? 9) || (c =? 10) || (c =? 13) then minify_from Outside r
          else if c =? 34 then c :: minify_from InString r
          else c :: minify_from Outside r
      | InString =>
          if c =? 34 then c :: minify_from Outside r
          else if c =? 92 then c :: minify_from AfterBackslash r
          else c :: minify_from InString r
      | AfterBackslash => c :: minify_from InString r
      end
  end.
Definition minify (t : bytes) : bytes := minify_from Outside t.

(** ** Well-formed values: strings, keys and numbers are what the grammar allows. *)
Inductive json_ok : json -> Prop :=
| ok_null : json_ok JNull
| ok_bool b : json_ok (JBool b)
| ok_num n : number n -> json_ok (JNum n)
| ok_str b : strbody b -> json_ok (JStr b)
| ok_arr l : Forall json_ok l -> json_ok (JArr l)
| ok_obj l : Forall (fun kv => strbody (fst kv) /\ json_ok (snd kv)) l -> json_ok (JObj l).

(** ** Tokens.  A text of a value is its tokens with whitespace (possibly none)
    before, between and after them. *)
Fixpoint sep (l : list (list bytes)) : list bytes :=
  match l with
  | [] => []
  | [x] => x
  | x :: r => x ++ [44] :: sep r
  end.
Fixpoint tokens (j : json) : list bytes :=
  match j with
  | JNull => [txt "null"]
  | JBool true => [txt "true"]
  | JBool false => [txt "false"]
  | JNum t => [t]
  | JStr b => [34 :: b ++ [34]]
  | JArr l => [91] :: sep (map tokens l) ++ [[93]]
  | JObj l => [123] :: sep (map (fun kv => let '(k, x) := kv in (34 :: k ++ [34]) :: [58] :: tokens x) l) ++ [[125]]
  end.
(** [spaced ts t]: [t] is the tokens [ts] with whitespace (possibly none) before, between and after them. *)
Inductive spaced : list bytes -> bytes -> Prop :=
| sp_nil w : ws w -> spaced [] w
| sp_cons w t ts r : ws w -> spaced ts r -> spaced (t :: ts) (w ++ t ++ r).
