(** Reference semantics of whole programs.

    A program is a list of calls of the API.  This file says what they answer
    without any memory: the documents are a forest of numbered nodes, a value
    object is the number of a node (or nothing), and every call is a function on
    that forest.  [rstep] yields [None] where the reference makes no promise (a
    broken precondition of the call, or one of the defects of section 6 of
    DESIGN.md).  The programs run on the model of the code in HistRun.v; HistSim.v
    relates the two. *)
From Verif Require Import Base Spec PureParse Dom Vocab CacheProofs ParseTop CopyProofs EscProofs Api PrintFacts Double Scene Mem MemProofs AllocProofs Lex LexProofs GetProofs Update.

(** ** The forest *)
Inductive nval :=
| NNull
| NBool (b : bool)
| NNum (t : bytes)
| NStr (t : bytes)
| NCont (ob : bool) (kids : list N).
(** [tpar] is the container a node was last put in (it is kept when that container
    is given another value).  Two flags remember what zj_Move leaves behind:
    [tprev] = false for a node whose predecessor was moved away (it cannot be moved
    itself any more), [tend] = false for a container that lost its last child (nothing
    can be added to it any more).  [tstop] = true for a number whose text is followed in
    memory by something that ends it, as in a parsed text; the text of a copied number
    is not. *)
Record tnode := mkT {
  tkey : option bytes;
  tvalue : nval;
  tpar : option N;
  tprev : bool;
  tend : bool;
  tstop : bool
}.
Definition forest := N -> option tnode.

Definition put (G : forest) (i : N) (t : tnode) : forest := fun x => if x =? i then Some t else G x.
Definition over (h G : forest) : forest := fun x => match h x with Some t => Some t | None => G x end.
Definition noforest : forest := fun _ => None.

Fixpoint mapo {X Y} (f : X -> option Y) (l : list X) : option (list Y) :=
  match l with
  | [] => Some []
  | x :: r => match f x, mapo f r with Some y, Some s => Some (y :: s) | _, _ => None end
  end.
(** The value below a node, if the forest is a tree there. *)
Fixpoint read (k : nat) (G : forest) (i : N) : option json :=
  match k with
  | O => None
  | S k' =>
      match G i with
      | None => None
      | Some t =>
          match tvalue t with
          | NNull => Some JNull
          | NBool b => Some (JBool b)
          | NNum b => Some (JNum b)
          | NStr b => Some (JStr b)
          | NCont ob kids =>
              option_map (container ob)
                (mapo (fun c => match G c, read k' G c with
                                | Some tc, Some j => Some (tkey tc, j)
                                | _, _ => None
                                end) kids)
          end
      end
  end.

(** [j] below node [i], its inner nodes numbered from [n]: the value of [i], the
    new nodes, the next free number. *)
Fixpoint plant (i : N) (j : json) (n : N) : nval * forest * N :=
  match j with
  | JNull => (NNull, noforest, n)
  | JBool b => (NBool b, noforest, n)
  | JNum b => (NNum b, noforest, n)
  | JStr b => (NStr b, noforest, n)
  | JArr l =>
      let '(ks, h, n') :=
        (fix go l n := match l with
                       | [] => ([], noforest, n)
                       | x :: r =>
                           let '(v, h1, n1) := plant n x (n + 1) in
                           let '(ks, h2, n2) := go r n1 in
                           (n :: ks, put (over h1 h2) n (mkT None v (Some i) true true false), n2)
                       end) l n in
      (NCont false ks, h, n')
  | JObj l =>
      let '(ks, h, n') :=
        (fix go l n := match l with
                       | [] => ([], noforest, n)
                       | (k, x) :: r =>
                           let '(v, h1, n1) := plant n x (n + 1) in
                           let '(ks, h2, n2) := go r n1 in
                           (n :: ks, put (over h1 h2) n (mkT (Some k) v (Some i) true true false), n2)
                       end) l n in
      (NCont true ks, h, n')
  end.

Definition nilb {X} (l : list X) : bool := match l with [] => true | _ => false end.
Definition isinN (x : N) (l : list N) : bool := existsb (N.eqb x) l.
Definition is_some {X} (o : option X) : bool := match o with Some _ => true | None => false end.
Fixpoint split_at (i : N) (l : list N) : option (list N * list N) :=
  match l with
  | [] => None
  | x :: r => if x =? i then Some ([], r)
              else match split_at i r with Some (a, b) => Some (x :: a, b) | None => None end
  end.

(** Node [i] becomes the root of its own tree. *)
Definition unhook (G : forest) (i : N) : option forest :=
  match G i with
  | None => None
  | Some t =>
      match tpar t with
      | None => Some G
      | Some p =>
          match G p with
          | None => None
          | Some tp =>
              match tvalue tp with
              | NCont ob kids =>
                  match split_at i kids with
                  | None => None
                  | Some (l, r) =>
                      if tprev t && negb (isinN p kids) then
                        Some (fun x =>
                          if x =? i then Some (mkT (tkey t) (tvalue t) None true (tend t) (tstop t))
                          else if x =? p then
                            Some (mkT (tkey tp) (NCont ob (l ++ r)) (tpar tp) (tprev tp)
                                      (match r with [] => nilb l | _ => tend tp end) (tstop tp))
                          else if (match r with [] => false | y :: _ => x =? y end)
                          then option_map (fun tx => mkT (tkey tx) (tvalue tx) (tpar tx) (nilb l) (tend tx) (tstop tx)) (G x)
                          else G x)
                      else None
                  end
              | _ => None
              end
          end
      end
  end.
(** Root [c] becomes the last child of [a]. *)
Definition hang (G : forest) (ob : bool) (a c : N) : option forest :=
  match G a, G c with
  | Some ta, Some tc =>
      match tvalue ta with
      | NCont ob' kids =>
          if Bool.eqb ob' ob && negb (is_some (tpar tc)) && negb (a =? c) && negb (isinN a kids) &&
             (nilb kids || tend ta) && (lenN kids + 1 <? two32)
          then Some (fun x =>
                 if x =? c then Some (mkT (tkey tc) (tvalue tc) (Some a) true (tend tc) (tstop tc))
                 else if x =? a then Some (mkT (tkey ta) (NCont ob (kids ++ [c])) (tpar ta) (tprev ta) true (tstop ta))
                 else G x)
          else None
      | _ => None
      end
  | _, _ => None
  end.
Definition nkids (v : nval) : list N := match v with NCont _ k => k | _ => [] end.
(** [a] takes over the value of root [b], which is gone then. *)
Definition hand (G : forest) (a b : N) (known : bool) : option forest :=
  match G a, G b with
  | Some ta, Some tb =>
      if negb (is_some (tpar tb)) && negb (a =? b) && negb (isinN a (nkids (tvalue tb))) then
        Some (fun x =>
          if x =? b then None
          else if x =? a then
            Some (mkT (tkey ta) (tvalue tb) (tpar ta) (tprev ta) ((known && tend tb) || nilb (nkids (tvalue tb))) (tstop tb))
          else if isinN x (nkids (tvalue tb))
          then option_map (fun tx => mkT (tkey tx) (tvalue tx) (Some a) (tprev tx) (tend tx) (tstop tx)) (G x)
          else G x)
      else None
  | _, _ => None
  end.
Definition rekeyN (G : forest) (i : N) (k : option bytes) : forest := fun x =>
  if x =? i then option_map (fun t => mkT k (tvalue t) (tpar t) (tprev t) (tend t) (tstop t)) (G x) else G x.

(** ** States *)
(** [rh]: the value objects, each with the number of its node (if any) and of its
    allocator.  [ru]: an upper bound of the bytes each allocator has handed out. *)
Record rst := mkR {
  rG : forest;
  rn : N;
  rh : list (option N * nat);
  ru : list N
}.
Definition rstart : rst := mkR noforest 0 [] [].

Fixpoint setn {X} (n : nat) (x : X) (l : list X) : list X :=
  match n, l with
  | _, [] => []
  | O, _ :: r => x :: r
  | S n', y :: r => y :: setn n' x r
  end.

(** The node of value object [h] and its allocator; [None] if there is no such value
    object or its node is gone (zj_SetFast took its value). *)
Definition look (R : rst) (h : nat) : option (option (N * tnode) * nat) :=
  match nth_error (rh R) h with
  | None => None
  | Some (None, A) => Some (None, A)
  | Some (Some i, A) => match rG R i with Some t => Some (Some (i, t), A) | None => None end
  end.
(** [n] more bytes from allocator [A] *)
Definition spend (R : rst) (A : nat) (n : N) : option rst :=
  match nth_error (ru R) A with
  | None => None
  | Some u => if u + n <=? two30 then Some (mkR (rG R) (rn R) (rh R) (setn A (u + n) (ru R))) else None
  end.
(** [n] more bytes for the library's scratch string, which is in whichever
    allocator needed it first *)
Definition scratch (R : rst) (n : N) : option rst :=
  if forallb (fun u => u + n <=? two30) (ru R)
  then Some (mkR (rG R) (rn R) (rh R) (map (fun u => u + n) (ru R))) else None.
Definition with_forest (R : rst) (G : forest) : rst := mkR G (rn R) (rh R) (ru R).
Definition with_handle (R : rst) (h : nat) (o : option N) : rst :=
  mkR (rG R) (rn R)
    (match nth_error (rh R) h with Some (_, A) => setn h (o, A) (rh R) | None => rh R end) (ru R).
Definition new_value (R : rst) (o : option N) (A : nat) : rst := mkR (rG R) (rn R) (rh R ++ [(o, A)]) (ru R).
Definition reads_as (R : rst) (i : N) : option json := read (S (N.to_nat (rn R))) (rG R) i.

(** Value object [h] gets the content [j]. *)
Definition assign (R : rst) (h : nat) (w : option (N * tnode)) (j : json) : rst :=
  match w with
  | Some (i, t) =>
      let '(v, g, n') := plant i j (rn R) in
      mkR (put (over g (rG R)) i (mkT (tkey t) v (tpar t) (tprev t) true false)) n' (rh R) (ru R)
  | None =>
      let '(v, g, n') := plant (rn R) j (rn R + 1) in
      with_handle (mkR (put (over g (rG R)) (rn R) (mkT None v None true true false)) n' (rh R) (ru R)) h (Some (rn R))
  end.
(** A new tree like the one at [i]; its root has the number [rn R]. *)
Definition duplicate (R : rst) (t : tnode) (j : json) : rst :=
  let '(v, g, n') := plant (rn R) j (rn R + 1) in
  mkR (put (over g (rG R)) (rn R) (mkT (tkey t) v None true true false)) n' (rh R) (ru R).

(** The numbers [R] has more than [R0], and the one of value object [w], are followed
    by something that ends them. *)
Definition sealed (R0 : rst) (w : option (N * tnode)) (R : rst) : rst :=
  with_forest R (fun x =>
    if (rn R0 <=? x) || (match w with Some (i, _) => x =? i | None => false end)
    then option_map (fun t => mkT (tkey t) (tvalue t) (tpar t) (tprev t) (tend t) true) (rG R x)
    else rG R x).

(** ** Calls *)
Inductive parse_kind := PCopy | PFast | PLen.
Inductive text_kind := KCopy | KFast | KLen | KLenFast.
Inductive call :=
| CNewAllocator
| CNewValue (A : nat)
| CParse (k : parse_kind) (h : nat) (t pad : bytes)      (* zj_Parse, zj_ParseFast, zj_ParseLen *)
| CSetNull (h : nat)
| CSetBool (h : nat) (b : bool)
| CSetCont (ob : bool) (h : nat)                         (* zj_SetObj, zj_SetArray *)
| CSetText (num : bool) (k : text_kind) (h : nat) (t : bytes)   (* zj_SetNumStr..., zj_SetStr... *)
| CSetInt (h : nat) (z : Z)
| CSetLong (h : nat) (z : Z)
| CSetLongLong (h : nat) (z : Z)
| CSetDouble (h : nat) (d : double)
| CSetEscape (len : bool) (h : nat) (t : bytes)          (* zj_SetStrEscape, zj_SetStrLenEscape *)
| CSetKey (k : text_kind) (h : nat) (t : bytes)
| CSetKeyEscape (len : bool) (h : nat) (t : bytes)
| CGetType (h : nat)
| CSize (h : nat)
| CIsNull (h : nat)
| CGetBool (h : nat)
| CGetText (num fast : bool) (h : nat)                   (* zj_GetNumStr, zj_GetNumFast, zj_GetStr, zj_GetStrFast *)
| CGetUnEscape (h : nat)
| CGetInt (h : nat)
| CGetLong (h : nat)
| CGetLongLong (h : nat)
| CGetDouble (h : nat)
| CGetKey (fast : bool) (h : nat)
| CGetUnEscapeKey (h : nat)
| CStringify (h : nat)
| CObjGet (len : bool) (h : nat) (key : bytes)
| CArrayGet (h : nat) (i : N)
| CBegin (h : nat)
| CNext (h : nat)
| CCopy (h : nat)
| CMove (h : nat)
| CAdd (ob fast : bool) (h hv : nat)                     (* zj_ObjAdd(Fast), zj_ArrayAdd(Fast) *)
| CSet (fast : bool) (h hv : nat)
| CArrayDel (h : nat) (i : N)
| CObjDel (h : nat) (key : bytes).

(** What a call may take from the allocator the library's scratch string is in. *)
Definition cneed (c : call) : N :=
  match c with
  | CSetText _ KLen _ t | CSetText _ KLenFast _ t | CSetKey KLen _ t | CSetKey KLenFast _ t => check_cost (lenN t) + lenN t + 72
  | _ => 0
  end.

Inductive answer :=
| Done
| Bool (b : bool)
| Type_ (t : option jtype)
| Num (n : N)
| OBool (b : option bool)
| Text (t : option bytes)
| Int (z : option Z)
| Real (d : option double)
| Value (h : option nat)          (* the number of the new value object *)
| Arena (A : nat).

(** ** What texts mean *)
(** Any decision procedures for the grammar; [correct] says they are. *)
Record judge := {
  o_json : bytes -> option json;
  o_cut : bytes -> nat -> bool;
  o_num : bytes -> bool;
  o_str : bytes -> bool;
  o_dec : bytes -> option bytes;
  o_int : bytes -> option Z;
  o_real : bytes -> option double
}.

(** The finite doubles. *)
Definition doubleb (d : double) : bool :=
  match d with
  | DFin _ m e => ((0 <=? m) && (m <? 2 ^ 53) && (-1074 <=? e) && (e <=? 971) && ((e =? -1074) || (2 ^ 52 <=? m)))%Z
  | _ => false
  end.

Section Ref.
Variable jd : judge.

Definition ok_c (t : bytes) : bool := negb (has0 t).
Definition fits (t : bytes) : bool := lenN t <? two32.

Definition child_by (R : rst) (k : bytes) (kids : list N) : option N :=
  find (fun c => match rG R c with Some t => match tkey t with Some b => bytes_eqb b k | None => false end | None => false end) kids.
(** no key of a child contains a 0 byte *)
Definition keys_ok (R : rst) (kids : list N) : bool :=
  forallb (fun c => match rG R c with Some t => match tkey t with Some b => negb (has0 b) | None => true end | None => false end) kids.

Definition is_cont (ob : bool) (v : nval) : option (list N) :=
  match v with NCont ob' kids => if Bool.eqb ob' ob then Some kids else None | _ => None end.
Definition ntype (v : nval) : jtype :=
  match v with
  | NNull => TNull | NBool _ => TBool | NNum _ => TNumber | NStr _ => TString
  | NCont true _ => TObject | NCont false _ => TArray
  end.
Definition ntext (num : bool) (v : nval) : option bytes :=
  match v with NNum b => if num then Some b else None | NStr b => if num then None else Some b | _ => None end.

(** A value object for node [o], if any. *)
Definition give (R : rst) (A : nat) (o : option N) : option (answer * rst) :=
  match spend R A 16 with
  | None => None
  | Some R1 => match o with
               | None => Some (Value None, R1)
               | Some c => Some (Value (Some (length (rh R1))), new_value R1 (Some c) A)
               end
  end.
(** A copy of a text for the caller. *)
Definition copy_text (R : rst) (A : nat) (n : N) (o : option bytes) : option (answer * rst) :=
  match spend R A n with
  | None => None
  | Some R1 => Some (Text (option_map before0 o), R1)
  end.
(** Setting, if [ok]. *)
Definition set_if (R : rst) (h : nat) (w : option (N * tnode)) (ok : bool) (j : json) : option (answer * rst) :=
  if ok then Some (Bool true, assign R h w j) else Some (Bool false, R).
(** Likewise, with a text that is followed by something that ends a number. *)
Definition seal_if (R : rst) (h : nat) (w : option (N * tnode)) (ok : bool) (j : json) : option (answer * rst) :=
  if ok then Some (Bool true, sealed R w (assign R h w j)) else Some (Bool false, R).

(** May a key be set?  Not on an element of an array. *)
Definition key_allowed (R : rst) (w : option (N * tnode)) : option bool :=
  match w with
  | None => Some true
  | Some (i, t) =>
      match tpar t with
      | None => Some true
      | Some p => match rG R p with
                  | None => None
                  | Some tp => Some (is_some (is_cont true (tvalue tp)))
                  end
      end
  end.
Definition assign_key (R : rst) (h : nat) (w : option (N * tnode)) (k : bytes) : rst :=
  match w with
  | Some (i, t) => with_forest R (rekeyN (rG R) i (Some k))
  | None => with_handle (mkR (put (rG R) (rn R) (mkT (Some k) NNull None true true false)) (rn R + 1) (rh R) (ru R)) h (Some (rn R))
  end.
Definition key_if (R : rst) (h : nat) (w : option (N * tnode)) (ok : bool) (k : bytes) : option (answer * rst) :=
  match key_allowed R w with
  | None => None
  | Some b => if ok && b then Some (Bool true, assign_key R h w k) else Some (Bool false, R)
  end.

(** The tree at [i] must still be a tree after a node was put into another. *)
Definition checked (R : rst) (G : forest) (i : N) : option rst :=
  match read (S (N.to_nat (rn R))) G i with Some _ => Some (with_forest R G) | None => None end.

Definition rstep (c : call) (R : rst) : option (answer * rst) :=
  match c with
  | CNewAllocator => Some (Arena (length (ru R)), mkR (rG R) (rn R) (rh R) (ru R ++ [0]))
  | CNewValue A =>
      match spend R A 16 with
      | None => None
      | Some R1 => Some (Value (Some (length (rh R1))), new_value R1 None A)
      end
  | CParse k h t pad =>
      match look R h with
      | None => None
      | Some (w, A) =>
          let t0 := match k with PLen => before0 t | _ => t end in
          let room := match k with
                      | PCopy => 0%nat
                      | PFast => length pad
                      | PLen => (length t - length (before0 t))%nat
                      end in
          let cost := match k with PFast => 72 * (lenN t + 2) | _ => len_cost (lenN t) end in
          if (match k with PLen => true | _ => ok_c t end) && fits (t ++ 0 :: pad) &&
             negb (o_cut jd t0 room)
          then match spend R A cost with
               | None => None
               | Some R1 => match o_json jd t0 with
                            | Some j => Some (Bool true, sealed R1 w (assign R1 h w j))
                            | None => Some (Bool false, R1)
                            end
               end
          else None
      end
  | CSetNull h =>
      match look R h with
      | None => None
      | Some (w, A) => match spend R A 72 with None => None | Some R1 => Some (Done, assign R1 h w JNull) end
      end
  | CSetBool h b =>
      match look R h with
      | None => None
      | Some (w, A) => match spend R A 72 with None => None | Some R1 => Some (Done, assign R1 h w (JBool b)) end
      end
  | CSetCont ob h =>
      match look R h with
      | None => None
      | Some (w, A) => match spend R A 72 with None => None | Some R1 => Some (Done, assign R1 h w (container ob [])) end
      end
  | CSetText num k h t =>
      match look R h with
      | None => None
      | Some (w, A) =>
          let ok := if num then o_num jd t else o_str jd t in
          let j := if num then JNum t else JStr t in
          match k with
          | KCopy => if ok_c t && fits (t ++ [0]) then
                       match spend R A (lenN t + 72) with None => None | Some R1 => set_if R1 h w ok j end
                     else None
          | KFast => if ok_c t && fits (t ++ [0]) then
                       match spend R A 72 with None => None | Some R1 => seal_if R1 h w ok j end
                     else None
          | _ => if fits t then
                   match scratch R (check_cost (lenN t) + lenN t + 72) with None => None | Some R1 => set_if R1 h w ok j end
                 else None
          end
      end
  | CSetInt h z =>
      match look R h with
      | None => None
      | Some (w, A) =>
          if ((int_min <=? z) && (z <=? int_max))%Z then
            match spend R A 88 with None => None | Some R1 => Some (Bool true, sealed R1 w (assign R1 h w (JNum (dec_text z)))) end
          else None
      end
  | CSetLong h z | CSetLongLong h z =>
      match look R h with
      | None => None
      | Some (w, A) =>
          if ((long_min <=? z) && (z <=? long_max))%Z then
            match spend R A 96 with None => None | Some R1 => Some (Bool true, sealed R1 w (assign R1 h w (JNum (dec_text z)))) end
          else None
      end
  | CSetDouble h d =>
      match look R h with
      | None => None
      | Some (w, A) =>
          if doubleb d then
            match spend R A 104 with None => None | Some R1 => Some (Bool true, sealed R1 w (assign R1 h w (JNum (g17 d)))) end
          else None
      end
  | CSetEscape len h t =>
      match look R h with
      | None => None
      | Some (w, A) =>
          if (len || ok_c t) && fits (t ++ [0]) then
            match spend R A (esc_cost t + 72) with
            | None => None
            | Some R1 => Some (Bool true, assign R1 h w (JStr (escape_text t)))
            end
          else None
      end
  | CSetKey k h t =>
      match look R h with
      | None => None
      | Some (w, A) =>
          let ok := o_str jd t in
          match k with
          | KCopy => if ok_c t && fits (t ++ [0]) then
                       match spend R A (72 + lenN t) with None => None | Some R1 => key_if R1 h w ok t end
                     else None
          | KFast => if ok_c t && fits (t ++ [0]) then
                       match spend R A 72 with None => None | Some R1 => key_if R1 h w ok t end
                     else None
          | _ => if fits t then
                   match scratch R (check_cost (lenN t) + (72 + lenN t)) with None => None | Some R1 => key_if R1 h w ok t end
                 else None
          end
      end
  | CSetKeyEscape len h t =>
      match look R h with
      | None => None
      | Some (w, A) =>
          if (len || ok_c t) && fits (t ++ [0]) then
            match spend R A (esc_cost t + 72) with
            | None => None
            | Some R1 => key_if R1 h w true (escape_text t)
            end
          else None
      end
  | CGetType h =>
      match look R h with
      | None => None
      | Some (w, _) => Some (Type_ (option_map (fun it => ntype (tvalue (snd it))) w), R)
      end
  | CSize h =>
      match look R h with
      | None => None
      | Some (w, _) => Some (Num (match w with Some (_, t) => lenN (nkids (tvalue t)) | None => 0 end), R)
      end
  | CIsNull h =>
      match look R h with
      | None => None
      | Some (w, _) => Some (Bool (match w with Some (_, t) => match tvalue t with NNull => true | _ => false end | None => false end), R)
      end
  | CGetBool h =>
      match look R h with
      | None => None
      | Some (w, _) => Some (OBool (match w with Some (_, t) => match tvalue t with NBool b => Some b | _ => None end | None => None end), R)
      end
  | CGetText num fast h =>
      match look R h with
      | None => None
      | Some (w, A) =>
          let o := match w with Some (_, t) => ntext num (tvalue t) | None => None end in
          if fast then Some (Text o, R)
          else copy_text R A ((match o with Some b => lenN b | None => 0 end) + 1) o
      end
  | CGetUnEscape h =>
      match look R h with
      | None => None
      | Some (None, _) => Some (Text None, R)
      | Some (Some (_, t), A) =>
          match ntext false (tvalue t) with
          | None => Some (Text None, R)
          | Some b => match o_dec jd b with None => None | Some d => copy_text R A (lenN b + 1) (Some d) end
          end
      end
  | CGetInt h =>
      match look R h with
      | None => None
      | Some (None, _) => Some (Int None, R)
      | Some (Some (_, t), A) =>
          match ntext true (tvalue t) with
          | None => Some (Int None, R)
          | Some b =>
              match o_int jd b with
              | None => None
              | Some z => if ((int_min <=? z) && (z <=? int_max))%Z && (lenN b <? 128) then
                            match spend R A 4 with None => None | Some R1 => Some (Int (Some z), R1) end
                          else None
              end
          end
      end
  | CGetLong h | CGetLongLong h =>
      match look R h with
      | None => None
      | Some (None, _) => Some (Int None, R)
      | Some (Some (_, t), A) =>
          match ntext true (tvalue t) with
          | None => Some (Int None, R)
          | Some b =>
              match o_int jd b with
              | None => None
              | Some z => if tstop t && ((long_min <=? z) && (z <=? long_max))%Z && (lenN b <=? 128) then
                            match spend R A 8 with None => None | Some R1 => Some (Int (Some z), R1) end
                          else None
              end
          end
      end
  | CGetDouble h =>
      match look R h with
      | None => None
      | Some (None, _) => Some (Real None, R)
      | Some (Some (_, t), A) =>
          match ntext true (tvalue t) with
          | None => Some (Real None, R)
          | Some b =>
              match o_real jd b with
              | None => None
              | Some d => if tstop t && (lenN b <=? 128) then
                            match spend R A 8 with None => None | Some R1 => Some (Real (Some d), R1) end
                          else None
              end
          end
      end
  | CGetKey fast h =>
      match look R h with
      | None => None
      | Some (w, A) =>
          let o := match w with Some (_, t) => tkey t | None => None end in
          if fast then Some (Text o, R)
          else copy_text R A ((match o with Some b => lenN b | None => 0 end) + 1) o
      end
  | CGetUnEscapeKey h =>
      match look R h with
      | None => None
      | Some (w, A) =>
          match (match w with Some (_, t) => tkey t | None => None end) with
          | None => Some (Text None, R)
          | Some b => match o_dec jd b with None => None | Some d => copy_text R A (lenN b + 1) (Some d) end
          end
      end
  | CStringify h =>
      match look R h with
      | None => None
      | Some (None, _) => Some (Text (Some []), R)
      | Some (Some (i, _), A) =>
          match reads_as R i with
          | None => None
          | Some j => copy_text R A (print_cost (lenN (print j))) (Some (print j))
          end
      end
  | CObjGet len h k =>
      match look R h with
      | None => None
      | Some (None, A) => if (len || ok_c k) && fits (k ++ [0]) then Some (Value None, R) else None
      | Some (Some (_, t), A) =>
          if (len || ok_c k) && fits (k ++ [0]) then
            match is_cont true (tvalue t) with
            | None => Some (Value None, R)
            | Some kids => if len || keys_ok R kids then give R A (child_by R k kids) else None
            end
          else None
      end
  | CArrayGet h i =>
      match look R h with
      | None => None
      | Some (None, A) => Some (Value None, R)
      | Some (Some (_, t), A) =>
          if i <? two32 then
            match is_cont false (tvalue t) with
            | None => Some (Value None, R)
            | Some kids => give R A (nth_error kids (N.to_nat i))
            end
          else None
      end
  | CBegin h =>
      match look R h with
      | None => None
      | Some (None, A) => Some (Value None, R)
      | Some (Some (_, t), A) => give R A (hd_error (nkids (tvalue t)))
      end
  | CNext h =>
      match look R h with
      | None => None
      | Some (None, A) => Some (Value None, R)
      | Some (Some (i, t), A) =>
          match tpar t with
          | None => give R A None
          | Some p => match rG R p with
                      | None => None
                      | Some tp => match split_at i (nkids (tvalue tp)) with
                                   | None => None
                                   | Some (_, r) => give R A (hd_error r)
                                   end
                      end
          end
      end
  | CCopy h =>
      match look R h with
      | None => None
      | Some (None, A) => match spend R A 16 with None => None | Some R1 => Some (Value None, R1) end
      | Some (Some (i, t), A) =>
          match reads_as R i with
          | None => None
          | Some j =>
              match spend R A (88 + icost (tkey t, j)) with
              | None => None
              | Some R1 => Some (Value (Some (length (rh R1))), new_value (duplicate R1 t j) (Some (rn R1)) A)
              end
          end
      end
  | CMove h =>
      match look R h with
      | None => None
      | Some (None, _) => Some (Bool false, R)
      | Some (Some (i, _), _) =>
          match unhook (rG R) i with None => None | Some G => Some (Bool true, with_forest R G) end
      end
  | CAdd ob fast h hv =>
      match look R h, look R hv with
      | Some (w, _), Some (wv, B) =>
          match w with
          | None => Some (Bool false, R)
          | Some (a, ta) =>
              match is_cont ob (tvalue ta) with
              | None => Some (Bool false, R)
              | Some _ =>
                  match wv with
                  | None => if negb ob && negb fast
                            then match spend R B 16 with None => None | Some R1 => Some (Bool false, R1) end
                            else Some (Bool false, R)
                  | Some (c, tc) =>
                      if ob && negb (is_some (tkey tc)) then Some (Bool false, R)
                      else if fast then
                        match unhook (rG R) c with
                        | None => None
                        | Some G1 =>
                            match hang (if ob then G1 else rekeyN G1 c None) ob a c with
                            | None => None
                            | Some G2 => match checked R G2 a with
                                         | None => None
                                         | Some R1 => Some (Bool true, with_handle R1 hv None)
                                         end
                            end
                        end
                      else
                        match reads_as R c with
                        | None => None
                        | Some j =>
                            match spend R B (88 + icost (tkey tc, j)) with
                            | None => None
                            | Some R1 =>
                                let R2 := duplicate R1 tc j in
                                match hang (if ob then rG R2 else rekeyN (rG R2) (rn R1) None) ob a (rn R1) with
                                | None => None
                                | Some G2 => Some (Bool true, with_forest R2 G2)
                                end
                            end
                        end
                  end
              end
          end
      | _, _ => None
      end
  | CSet fast h hv =>
      match look R h, look R hv with
      | Some (w, _), Some (wv, B) =>
          match wv with
          | None => if fast then Some (Bool false, R)
                    else match spend R B 16 with None => None | Some R1 => Some (Bool false, R1) end
          | Some (b, tb) =>
              if fast then
                match unhook (rG R) b with
                | None => None
                | Some G1 =>
                    match w with
                    | None => Some (Bool true, with_handle (with_handle (with_forest R G1) hv None) h (Some b))
                    | Some (a, _) =>
                        match hand G1 a b true with
                        | None => None
                        | Some G2 => match checked R G2 a with
                                     | None => None
                                     | Some R1 => Some (Bool true, with_handle R1 hv None)
                                     end
                        end
                    end
                end
              else
                match reads_as R b with
                | None => None
                | Some j =>
                    match spend R B (88 + icost (tkey tb, j)) with
                    | None => None
                    | Some R1 =>
                        let R2 := duplicate R1 tb j in
                        match w with
                        | None => Some (Bool true, with_handle R2 h (Some (rn R1)))
                        | Some (a, _) =>
                            match hand (rG R2) a (rn R1) false with
                            | None => None
                            | Some G2 => Some (Bool true, with_forest R2 G2)
                            end
                        end
                    end
                end
          end
      | _, _ => None
      end
  | CArrayDel h i =>
      match look R h with
      | None => None
      | Some (None, _) => Some (Bool false, R)
      | Some (Some (_, t), A) =>
          if i <? two32 then
            match is_cont false (tvalue t) with
            | None => Some (Bool false, R)
            | Some kids =>
                match spend R A 16 with
                | None => None
                | Some R1 =>
                    match nth_error kids (N.to_nat i) with
                    | None => Some (Bool false, R1)
                    | Some c => match unhook (rG R1) c with None => None | Some G => Some (Bool true, with_forest R1 G) end
                    end
                end
            end
          else None
      end
  | CObjDel h k =>
      match look R h with
      | None => None
      | Some (w, A) =>
          if ok_c k && fits (k ++ [0]) then
            match w with
            | None => Some (Bool false, R)
            | Some (_, t) =>
                match is_cont true (tvalue t) with
                | None => Some (Bool false, R)
                | Some kids =>
                    if keys_ok R kids then
                      match spend R A 16 with
                      | None => None
                      | Some R1 =>
                          match child_by R1 k kids with
                          | None => Some (Bool false, R1)
                          | Some c => match unhook (rG R1) c with None => None | Some G => Some (Bool true, with_forest R1 G) end
                          end
                      end
                    else None
                end
            end
          else None
      end
  end.

Fixpoint rrun (cs : list call) (R : rst) : option (list answer * rst) :=
  match cs with
  | [] => Some ([], R)
  | c :: r =>
      match rstep c R with
      | None => None
      | Some (x, R1) => match rrun r R1 with None => None | Some (xs, R2) => Some (x :: xs, R2) end
      end
  end.
End Ref.
