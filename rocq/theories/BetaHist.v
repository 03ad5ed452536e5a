(** Programs over the beta header (beta/zzzjson_beta.h).

    The calls are those of Hist.v; the header has no functions for some of them.  [bstep]
    runs a call on the model of the code (Beta.v), [brstep] says what is to be expected:
    the reference semantics of Hist.v with, for every value object, the texts its getters
    remember.

    A parsed text always stays in the caller's buffer: also z_ValueParse and
    z_ValueParseLen keep pointers into it. *)
From Verif Require Import Base Spec Lex Alloc Mem Api Double Vocab Scene PureParse ParseTop CacheProofs Update CopyProofs Dom Hist HistRun Beta.

(** ** Running on the model *)
(** The buffer of a parse call: for z_ValueParseLen the text and whatever follows it. *)
Definition pbuf (k : parse_kind) (t pad : bytes) : bytes := match k with PLen => t ++ pad | _ => t ++ 0 :: pad end.

(** The calls, without the caches. *)
Definition zstep (fuel : nat) (c : call) (E : env) : M (answer * env) :=
  match c with
  | CNewValue A => a <- aof E A ;; v <- new_zvalue a Null ;; ret (out_value E (Some v))
  | CParse k h t pad =>
      v <- hof E h ;;
      with_env E Bool
        (keep (pbuf k t pad) (fun p => match k with
                                       | PCopy => z_parse v p
                                       | PFast => parse_fast true v p
                                       | PLen => z_parse_len v p (lenN t)
                                       end))
  | CSetDouble h d => v <- hof E h ;; with_env E Bool (z_set_num v d)
  | CObjGet len h k =>
      v <- hof E h ;;
      r <- (if len then lend k (fun p => z_obj_get_len fuel v p (lenN k))
            else lend (k ++ [0]) (fun p => z_obj_get fuel v p)) ;;
      ret (out_value E r)
  | CArrayGet h i => v <- hof E h ;; r <- z_array_get fuel v i ;; ret (out_value E r)
  | CBegin h => v <- hof E h ;; r <- z_begin v ;; ret (out_value E r)
  | CNext h => v <- hof E h ;; r <- z_next v ;; ret (out_value E r)
  | CCopy h => v <- hof E h ;; r <- z_copy fuel v ;; ret (out_value E r)
  | CAdd ob fast h hv =>
      v <- hof E h ;; vv <- hof E hv ;;
      with_env E Bool
        (match ob, fast with
         | true, true => zj_ObjAddFast v vv
         | true, false => z_obj_add fuel v vv
         | false, true => zj_ArrayAddFast v vv
         | false, false => z_array_add fuel v vv
         end)
  | CSet fast h hv =>
      v <- hof E h ;; vv <- hof E hv ;;
      with_env E Bool (if fast then z_set_fast fuel v vv else z_set fuel v vv)
  | CArrayDel h i => v <- hof E h ;; with_env E Bool (z_array_del fuel v i)
  | CObjDel h k => v <- hof E h ;; with_env E Bool (lend (k ++ [0]) (fun p => z_obj_del fuel v p))
  | _ => cstep fuel c E
  end.

(** The calls. *)
Definition same {X} (B : bmem) (m : M X) : M (X * bmem) := r <- m ;; ret (r, B).
Definition with_envB {X} (E : env) (f : X -> answer) (m : M (X * bmem)) : M ((answer * env) * bmem) :=
  xb <- m ;; ret ((f (fst xb), E), snd xb).
Definition out_valueB (E : env) (m : M (option addr * bmem)) : M ((answer * env) * bmem) :=
  rb <- m ;; ret (out_value E (fst rb), snd rb).
(** A pointer to a text is read as a C string, one to a double as a double. *)
Definition out_textB (E : env) (m : M (option word * bmem)) : M ((answer * env) * bmem) :=
  rb <- m ;; x <- out_text (fst rb) ;; ret ((x, E), snd rb).
Definition out_num (o : option (addr * option double)) : M answer :=
  match o with
  | None => ret (Real None)
  | Some (_, Some d) => ret (Real (Some d))
  | Some (_, None) => fail EDeref
  end.
Definition out_numB (E : env) (m : M (option (addr * option double) * bmem)) : M ((answer * env) * bmem) :=
  rb <- m ;; x <- out_num (fst rb) ;; ret ((x, E), snd rb).

Definition zset_text_call (B : bmem) (num : bool) (k : text_kind) (v p : addr) (n : N) : M (bool * bmem) :=
  match num, k with
  | true, KCopy => z_ValueSetNumStr B v p
  | true, KFast => z_ValueSetNumStrFast B v p
  | true, KLen => z_ValueSetNumStrLen B v p n
  | true, KLenFast => z_ValueSetNumStrLenFast B v p n
  | false, KCopy => z_ValueSetStr B v p
  | false, KFast => z_ValueSetStrFast B v p
  | false, KLen => z_ValueSetStrLen B v p n
  | false, KLenFast => z_ValueSetStrLenFast B v p n
  end.
Definition zset_key_call (B : bmem) (k : text_kind) (v p : addr) (n : N) : M (bool * bmem) :=
  match k with
  | KCopy => z_ValueSetKey B v p
  | KFast => z_ValueSetKeyFast B v p
  | KLen => z_ValueSetKeyLen B v p n
  | KLenFast => z_ValueSetKeyLenFast B v p n
  end.

Definition bstep (fuel : nat) (c : call) (E : env) (B : bmem) : M ((answer * env) * bmem) :=
  match c with
  | CNewValue A => a <- aof E A ;; vb <- z_ValueNew B a ;; ret (out_value E (Some (fst vb)), snd vb)
  | CParse k h t pad =>
      v <- hof E h ;;
      with_envB E Bool
        (keep (pbuf k t pad) (fun p => match k with
                                       | PCopy => z_ValueParse B v p
                                       | PFast => z_ValueParseFast B v p
                                       | PLen => z_ValueParseLen B v p (lenN t)
                                       end))
  | CSetNull h => v <- hof E h ;; with_envB E (fun _ => Done) (z_ValueSetNull B v)
  | CSetBool h b => v <- hof E h ;; with_envB E (fun _ => Done) (z_ValueSetBool B v b)
  | CSetCont ob h => v <- hof E h ;; with_envB E (fun _ => Done) (if ob then z_ValueSetObj B v else z_ValueSetArray B v)
  | CSetText num k h t =>
      v <- hof E h ;;
      with_envB E Bool (pass (kept_kind k) (kbuf k t) (fun p => zset_text_call B num k v p (lenN t)))
  | CSetDouble h d => v <- hof E h ;; with_envB E Bool (z_ValueSetNum B v d)
  | CSetKey k h t =>
      v <- hof E h ;;
      with_envB E Bool (pass (kept_kind k) (kbuf k t) (fun p => zset_key_call B k v p (lenN t)))
  | CGetText num false h => v <- hof E h ;; out_textB E (if num then z_ValueGetNumStr B v else z_ValueGetString B v)
  | CGetUnEscape h => v <- hof E h ;; out_textB E (z_ValueGetUnEscapeString B v)
  | CGetDouble h => v <- hof E h ;; out_numB E (z_ValueGetNum B v)
  | CGetKey false h => v <- hof E h ;; out_textB E (z_ValueGetKey B v)
  | CGetUnEscapeKey h => v <- hof E h ;; out_textB E (z_ValueGetUnEscapeKey B v)
  | CObjGet len h k =>
      v <- hof E h ;;
      out_valueB E (if len then lend k (fun p => z_ValueObjGetLen fuel B v p (lenN k))
                    else lend (k ++ [0]) (fun p => z_ValueObjGet fuel B v p))
  | CArrayGet h i => v <- hof E h ;; out_valueB E (z_ValueArrayGet fuel B v i)
  | CBegin h => v <- hof E h ;; out_valueB E (z_ValueBegin B v)
  | CNext h => v <- hof E h ;; out_valueB E (z_ValueNext B v)
  | CCopy h => v <- hof E h ;; out_valueB E (z_ValueCopy fuel B v)
  | CAdd ob fast h hv =>
      v <- hof E h ;; vv <- hof E hv ;;
      with_envB E Bool
        (match ob, fast with
         | true, true => z_ValueObjAddFast B v vv
         | true, false => same B (z_obj_add fuel v vv)
         | false, true => z_ValueArrayAddFast B v vv
         | false, false => same B (z_array_add fuel v vv)
         end)
  | CSet fast h hv =>
      v <- hof E h ;; vv <- hof E hv ;;
      with_envB E Bool (if fast then z_ValueSetFast fuel B v vv else z_ValueSet fuel B v vv)
  | CArrayDel h i => v <- hof E h ;; with_envB E Bool (same B (z_array_del fuel v i))
  | CObjDel h k => v <- hof E h ;; with_envB E Bool (same B (lend (k ++ [0]) (fun p => z_obj_del fuel v p)))
  | CNewAllocator | CGetType _ | CSize _ | CIsNull _ | CGetBool _ | CGetText _ true _ | CGetKey true _
  | CStringify _ | CMove _ => same B (cstep fuel c E)
  | CSetInt _ _ | CSetLong _ _ | CSetLongLong _ _ | CSetEscape _ _ _ | CSetKeyEscape _ _ _
  | CGetInt _ | CGetLong _ | CGetLongLong _ => fail EDeref     (* no such function *)
  end.
Fixpoint brun (fuel : nat) (cs : list call) (E : env) (B : bmem) : M ((list answer * env) * bmem) :=
  match cs with
  | [] => ret (([], E), B)
  | c :: r => xb <- bstep fuel c E B ;; rb <- brun fuel r (snd (fst xb)) (snd xb) ;;
              ret ((fst (fst xb) :: fst (fst rb), snd (fst rb)), snd rb)
  end.

(** ** What is to be expected *)
(** The texts the getters of a value object remember. *)
Inductive kalt := KNone | KText (t : bytes) | KReal (d : double).
Record kache := mkK { kStr : option bytes; kAlt : kalt; kKey : option bytes; kUn : option bytes }.
Definition kclear : kache := mkK None KNone None None.

Section Ref.
Variable jd : judge.

(** A value object (48 bytes) for node [o], if any. *)
Definition zgive (R : rst) (A : nat) (o : option N) : option (answer * rst) :=
  match spend R A 48 with
  | None => None
  | Some R1 => match o with
               | None => Some (Value None, R1)
               | Some c => Some (Value (Some (length (rh R1))), new_value R1 (Some c) A)
               end
  end.
(** Node [a] takes over the key of [b] if both have one. *)
Definition takekey (G : forest) (a b : N) : forest :=
  match G a, G b with
  | Some ta, Some tb => match tkey ta, tkey tb with Some _, Some k => rekeyN G a (Some k) | _, _ => G end
  | _, _ => G
  end.
(** The copy a parse call makes. *)
Definition pcopy (k : parse_kind) (t t0 : bytes) : N :=
  match k with PFast => 0 | PCopy => lenN t0 + 1 | PLen => lenN t + 1 end.

(** What a call does to the values; not the calls that may be answered from a cache. *)
Definition zrstep (c : call) (R : rst) : option (answer * rst) :=
  match c with
  | CNewValue A =>
      match spend R A 48 with
      | None => None
      | Some R1 => Some (Value (Some (length (rh R1))), new_value R1 None A)
      end
  | CParse k h t pad =>
      match look R h with
      | None => None
      | Some (w, A) =>
          let buf := pbuf k t pad in
          let t0 := before0 buf in
          if has0 buf && fits buf && negb (o_cut jd t0 (length buf - length t0 - 1)) then
            match spend R A (pcopy k t t0 + 72 * (lenN t0 + 2)) with
            | None => None
            | Some R1 => match o_json jd t0 with
                         | Some j => Some (Bool true, sealed R1 w (assign R1 h w j))
                         | None => Some (Bool false, R1)
                         end
            end
          else None
      end
  | CSetDouble h d =>
      match look R h with
      | None => None
      | Some (w, A) =>
          match spend R A 104 with
          | None => None
          | Some R1 =>
              match d with
              | DFin _ _ _ => if doubleb d then Some (Bool true, sealed R1 w (assign R1 h w (JNum (g17 d)))) else None
              | _ => Some (Bool false, R1)
              end
          end
      end
  | CObjGet len h k =>
      match look R h with
      | None => None
      | Some (None, A) => if (len || ok_c k) && fits (k ++ [0]) then Some (Value None, R) else None
      | Some (Some (_, t), A) =>
          if (len || ok_c k) && fits (k ++ [0]) then
            match is_cont true (tvalue t) with
            | None => Some (Value None, R)
            | Some kids => if len || keys_ok R kids then zgive R A (child_by R k kids) else None
            end
          else None
      end
  | CArrayGet h i =>
      match look R h with
      | None => None
      | Some (None, A) => Some (Value None, R)
      | Some (Some (_, t), A) =>
          if i <? two32 then
            match is_cont false (tvalue t) with
            | None => Some (Value None, R)
            | Some kids => zgive R A (nth_error kids (N.to_nat i))
            end
          else None
      end
  | CBegin h =>
      match look R h with
      | None => None
      | Some (None, A) => Some (Value None, R)
      | Some (Some (_, t), A) => zgive R A (hd_error (nkids (tvalue t)))
      end
  | CNext h =>
      match look R h with
      | None => None
      | Some (None, A) => Some (Value None, R)
      | Some (Some (i, t), A) =>
          match tpar t with
          | None => zgive R A None
          | Some p => match rG R p with
                      | None => None
                      | Some tp => match split_at i (nkids (tvalue tp)) with
                                   | None => None
                                   | Some (_, r) => zgive R A (hd_error r)
                                   end
                      end
          end
      end
  | CCopy h =>
      match look R h with
      | None => None
      | Some (None, A) => Some (Value None, R)
      | Some (Some (i, t), A) =>
          match reads_as R i with
          | None => None
          | Some j =>
              match spend R A (120 + icost (tkey t, j)) with
              | None => None
              | Some R1 => Some (Value (Some (length (rh R1))), new_value (duplicate R1 t j) (Some (rn R1)) A)
              end
          end
      end
  | CAdd ob fast h hv =>
      match look R h, look R hv with
      | Some (w, _), Some (wv, B) =>
          match w with
          | None => Some (Bool false, R)
          | Some (a, ta) =>
              match is_cont ob (tvalue ta) with
              | None => Some (Bool false, R)
              | Some _ =>
                  match wv with
                  | None => Some (Bool false, R)
                  | Some (c, tc) =>
                      if ob && negb (is_some (tkey tc)) then Some (Bool false, R)
                      else if fast then
                        match unhook (rG R) c with
                        | None => None
                        | Some G1 =>
                            match hang (if ob then G1 else rekeyN G1 c None) ob a c with
                            | None => None
                            | Some G2 => match checked R G2 a with
                                         | None => None
                                         | Some R1 => Some (Bool true, with_handle R1 hv None)
                                         end
                            end
                        end
                      else
                        match reads_as R c with
                        | None => None
                        | Some j =>
                            match spend R B (120 + icost (tkey tc, j)) with
                            | None => None
                            | Some R1 =>
                                let R2 := duplicate R1 tc j in
                                match hang (if ob then rG R2 else rekeyN (rG R2) (rn R1) None) ob a (rn R1) with
                                | None => None
                                | Some G2 => Some (Bool true, with_forest R2 G2)
                                end
                            end
                        end
                  end
              end
          end
      | _, _ => None
      end
  | CSet fast h hv =>
      match look R h, look R hv with
      | Some (w, _), Some (wv, B) =>
          match wv with
          | None => Some (Bool false, R)
          | Some (b, tb) =>
              if fast then
                match unhook (rG R) b with
                | None => None
                | Some G1 =>
                    match w with
                    | None => Some (Bool true, with_handle (with_handle (with_forest R G1) hv None) h (Some b))
                    | Some (a, _) =>
                        match hand (takekey G1 a b) a b true with
                        | None => None
                        | Some G2 => match checked R G2 a with
                                     | None => None
                                     | Some R1 => Some (Bool true, with_handle R1 hv None)
                                     end
                        end
                    end
                end
              else
                match reads_as R b with
                | None => None
                | Some j =>
                    match spend R B (120 + icost (tkey tb, j)) with
                    | None => None
                    | Some R1 =>
                        let R2 := duplicate R1 tb j in
                        match w with
                        | None => Some (Bool true, with_handle R2 h (Some (rn R1)))
                        | Some (a, _) =>
                            match hand (takekey (rG R2) a (rn R1)) a (rn R1) false with
                            | None => None
                            | Some G2 => Some (Bool true, with_forest R2 G2)
                            end
                        end
                    end
                end
          end
      | _, _ => None
      end
  | CArrayDel h i =>
      match look R h with
      | None => None
      | Some (None, _) => Some (Bool false, R)
      | Some (Some (_, t), A) =>
          if i <? two32 then
            match is_cont false (tvalue t) with
            | None => Some (Bool false, R)
            | Some kids =>
                match spend R A 48 with
                | None => None
                | Some R1 =>
                    match nth_error kids (N.to_nat i) with
                    | None => Some (Bool false, R1)
                    | Some c => match unhook (rG R1) c with None => None | Some G => Some (Bool true, with_forest R1 G) end
                    end
                end
            end
          else None
      end
  | CObjDel h k =>
      match look R h with
      | None => None
      | Some (w, A) =>
          if ok_c k && fits (k ++ [0]) then
            match w with
            | None => Some (Bool false, R)
            | Some (_, t) =>
                match is_cont true (tvalue t) with
                | None => Some (Bool false, R)
                | Some kids =>
                    if keys_ok R kids then
                      match spend R A 48 with
                      | None => None
                      | Some R1 =>
                          match child_by R1 k kids with
                          | None => Some (Bool false, R1)
                          | Some c => match unhook (rG R1) c with None => None | Some G => Some (Bool true, with_forest R1 G) end
                          end
                      end
                    else None
                end
            end
          else None
      end
  | CSetInt _ _ | CSetLong _ _ | CSetLongLong _ _ | CSetEscape _ _ _ | CSetKeyEscape _ _ _
  | CGetInt _ | CGetLong _ | CGetLongLong _
  | CGetText _ false _ | CGetUnEscape _ | CGetDouble _ | CGetKey false _ | CGetUnEscapeKey _ => None
  | _ => rstep jd c R
  end.

(** The value objects whose getters forget what they remember. *)
Definition clears (c : call) (x : answer) : list nat :=
  match c, x with
  | CParse _ h _ _, _ | CSetNull h, _ | CSetBool h _, _ | CSetCont _ h, _ => [h]
  | CSetText _ _ h _, Bool true | CSetDouble h _, Bool true | CSetKey _ h _, Bool true => [h]
  | CAdd _ true _ hv, Bool true => [hv]
  | CSet true h hv, Bool true => [h; hv]
  | CSet false h _, Bool true => [h]
  | _, _ => []
  end.
Definition forget (c : call) (x : answer) (K : list kache) : list kache :=
  match x with
  | Value (Some _) => K ++ [kclear]
  | _ => fold_left (fun K h => setn h kclear K) (clears c x) K
  end.

(** A text getter: [o] the text there is now, [n] the bytes of a copy, [c] what is remembered. *)
Definition recall (R : rst) (K : list kache) (h A : nat) (n : N) (o c : option bytes) (put : bytes -> kache) : option (answer * (rst * list kache)) :=
  match c with
  | Some t => Some (Text (Some t), (R, K))
  | None =>
      match o with
      | None => None
      | Some b => match spend R A n with
                  | None => None
                  | Some R1 => Some (Text (Some (before0 b)), (R1, setn h (put (before0 b)) K))
                  end
      end
  end.
Definition brstep (c : call) (RK : rst * list kache) : option (answer * (rst * list kache)) :=
  let '(R, K) := RK in
  match c with
  | CGetText num false h =>
      match look R h, nth_error K h with
      | Some (w, A), Some k =>
          match (match w with Some (_, t) => ntext num (tvalue t) | None => None end) with
          | None => Some (Text None, (R, K))
          | Some b => recall R K h A (lenN b + 1) (Some b) (kStr k) (fun t => mkK (Some t) (kAlt k) (kKey k) (kUn k))
          end
      | _, _ => None
      end
  | CGetKey false h =>
      match look R h, nth_error K h with
      | Some (w, A), Some k =>
          match (match w with Some (_, t) => tkey t | None => None end) with
          | None => Some (Text None, (R, K))
          | Some b => recall R K h A (lenN b + 1) (Some b) (kKey k) (fun t => mkK (kStr k) (kAlt k) (Some t) (kUn k))
          end
      | _, _ => None
      end
  | CGetUnEscapeKey h =>
      match look R h, nth_error K h with
      | Some (w, A), Some k =>
          match (match w with Some (_, t) => tkey t | None => None end) with
          | None => Some (Text None, (R, K))
          | Some b => recall R K h A (lenN b + 1) (o_dec jd b) (kUn k) (fun t => mkK (kStr k) (kAlt k) (kKey k) (Some t))
          end
      | _, _ => None
      end
  | CGetUnEscape h =>
      match look R h, nth_error K h with
      | Some (w, A), Some k =>
          match (match w with Some (_, t) => ntext false (tvalue t) | None => None end) with
          | None => Some (Text None, (R, K))
          | Some b =>
              match kAlt k with
              | KReal _ => None
              | KText t => Some (Text (Some t), (R, K))
              | KNone => recall R K h A (lenN b + 1) (o_dec jd b) None (fun t => mkK (kStr k) (KText t) (kKey k) (kUn k))
              end
          end
      | _, _ => None
      end
  | CGetDouble h =>
      match look R h, nth_error K h with
      | Some (w, A), Some k =>
          match (match w with Some (_, t) => option_map (fun b => (b, tstop t)) (ntext true (tvalue t)) | None => None end) with
          | None => Some (Real None, (R, K))
          | Some (b, stop) =>
              match kAlt k with
              | KText _ => None
              | KReal d => Some (Real (Some d), (R, K))
              | KNone =>
                  match o_real jd b with
                  | None => None
                  | Some d =>
                      if stop : bool then
                        match spend R A 8 with
                        | None => None
                        | Some R1 => Some (Real (Some d), (R1, setn h (mkK (kStr k) (KReal d) (kKey k) (kUn k)) K))
                        end
                      else None
                  end
              end
          end
      | _, _ => None
      end
  | _ => match zrstep c R with None => None | Some (x, R') => Some (x, (R', forget c x K)) end
  end.
Fixpoint brrun (cs : list call) (RK : rst * list kache) : option (list answer * (rst * list kache)) :=
  match cs with
  | [] => Some ([], RK)
  | c :: r =>
      match brstep c RK with
      | None => None
      | Some (x, RK1) => match brrun r RK1 with None => None | Some (xs, RK2) => Some (x :: xs, RK2) end
      end
  end.
End Ref.
