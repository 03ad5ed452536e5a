(** Reading values: the lemmas behind the properties. *)
From Verif Require Import Base Spec Lex LexProofs Alloc AllocProofs Mem MemProofs Api PureParse SpecProofs
  Dom Effect Steps SetProofs StringifyProofs ParseTop IntProofs EscProofs GetProofs CopyProofs Vocab ParseFacts PrintFacts.

(** ** What the calls should return, in terms of the JSON value *)
Definition type_of (j : json) : jtype :=
  match j with
  | JNull => TNull | JBool _ => TBool | JNum _ => TNumber | JStr _ => TString | JArr _ => TArray | JObj _ => TObject
  end.
(** The children with their keys (none in arrays). *)
Definition items (j : json) : list (option bytes * json) :=
  match j with
  | JArr l => map (fun x => (None, x)) l
  | JObj l => map (fun kv => (Some (fst kv), snd kv)) l
  | _ => []
  end.
Definition num_text (j : json) : option bytes := match j with JNum t => Some t | _ => None end.
Definition str_body (j : json) : option bytes := match j with JStr t => Some t | _ => None end.
(** The first member whose key is [k]. *)
Fixpoint assoc (k : bytes) (l : list (bytes * json)) : option json :=
  match l with
  | [] => None
  | (k', j) :: r => if bytes_eqb k' k then Some j else assoc k r
  end.

(** The integer part of a number text. *)
Definition dec_value (ds : bytes) : Z := fold_left (fun x c => (10 * x + Z.of_N (c - 48))%Z) ds 0%Z.
Definition int_value (b : bytes) (z : Z) : Prop :=
  exists sg i f e, (sg = [] \/ sg = [45]) /\ int_part i /\ frac_part f /\ exp_part e /\ b = sg ++ i ++ f ++ e /\
    z = (if sg then dec_value i else - dec_value i)%Z.
Lemma digits_val_app ds : Forall is_digit ds -> forall acc c r, ~ is_digit c ->
  digits_val acc (ds ++ c :: r) = Ok (fold_left (fun x c => (10 * x + Z.of_N (c - 48))%Z) ds acc).
Proof.
  induction 1 as [|d ds Hd _ IH]; intros acc c r Hc; cbn [app digits_val fold_left].
  - replace (digitb c) with false; auto. symmetry. destruct (digitb c) eqn:E; auto. apply digitb_spec in E. contradiction.
  - apply digitb_spec in Hd. rewrite Hd. auto.
Qed.
Lemma int_part_digits i : int_part i -> Forall is_digit i /\ exists d ds, i = d :: ds /\ is_digit d.
Proof.
  intros [->|(d & ds & Hd & Hds & ->)].
  - split; [repeat constructor; lia|]. exists 48, []. split; auto. unfold is_digit. lia.
  - assert (is_digit d) by (unfold is_digit; lia). split; [constructor; auto|eauto].
Qed.
Lemma after_int f e c r : frac_part f -> exp_part e -> ~ is_digit c ->
  exists c' r', f ++ e ++ c :: r = c' :: r' /\ ~ is_digit c'.
Proof.
  intros [->|(ds & _ & _ & ->)] He Hc.
  - destruct He as [->|(e0 & sg & ds & H0 & _ & _ & _ & ->)].
    + exists c, r. auto.
    + exists e0, ((sg ++ ds) ++ c :: r). split; auto. unfold is_digit. lia.
  - exists 46, (ds ++ e ++ c :: r). split; auto. unfold is_digit. lia.
Qed.
Lemma ato_number lo hi b z c r : int_value b z -> (lo <= z <= hi)%Z -> ~ is_digit c -> ato lo hi (b ++ c :: r) = Ok z.
Proof.
  intros (sg & i & f & e & Hsg & Hi & Hf & He & -> & Ez) Hz Hc. rewrite <- !app_assoc.
  destruct (after_int f e c r Hf He Hc) as (c' & r' & E & Hc'). rewrite E. clear E.
  destruct (int_part_digits i Hi) as [Fd (d & ds & Ei & Hd)].
  assert (Hb : ((lo <=? z)%Z && (z <=? hi)%Z) = true) by (apply andb_true_intro; split; apply Z.leb_le; lia).
  unfold ato. destruct Hsg as [->| ->].
  - cbn [app]. rewrite Ei in *. cbn [app]. unfold is_digit in Hd. cbn [skip_space].
    replace (isspace d) with false by (symmetry; unfold isspace; bools; lia).
    replace (d =? 45) with false by (symmetry; bools; lia). replace (d =? 43) with false by (symmetry; bools; lia).
    change (d :: ds ++ c' :: r') with ((d :: ds) ++ c' :: r'). rewrite digits_val_app by auto. cbn [rbind].
    unfold dec_value in Ez. rewrite <- Ez. now rewrite Hb.
  - cbn [app skip_space]. change (isspace 45) with false. cbv iota. change (45 =? 45) with true. cbv iota.
    rewrite digits_val_app by auto. cbn [rbind]. unfold dec_value in Ez. rewrite <- Ez. now rewrite Hb.
Qed.

(** Walking over the children: [for (c = Begin(v); c != 0; c = Next(c))]. *)
Fixpoint walk (fuel : nat) (h : option addr) : M (list addr) :=
  match h with
  | None => ret []
  | Some v => match fuel with
              | O => fail EFuel
              | S fuel' => n <- zj_Next v ;; r <- walk fuel' n ;; ret (v :: r)
              end
  end.
Definition children (fuel : nat) (v : addr) : M (list addr) := h <- zj_Begin v ;; walk fuel h.

Section WithVol.
Context {VV : vols}.

(** A pointer and a length: the text in place. *)
Definition text_in (s : st) (o : option bytes) (r : option (word * N)) : Prop :=
  match o with
  | None => r = None
  | Some b => exists p, r = Some (At p, lenN b) /\ holds s p b
  end.
(** A 0-terminated copy. *)
Definition text_out (s : st) (o : option bytes) (r : option word) : Prop :=
  match o with
  | None => r = None
  | Some b => exists w, r = Some w /\ string_at s w b
  end.
(** A new value object for a node with key [k] and content [j]. *)
Definition child_at (s : st) (F : dom) (A : N) (h : addr) (kj : option bytes * json) : Prop :=
  exists c fc, on s F h c A /\ F c = Some fc /\ fkey fc = fst kj /\ reads F c (snd kj).
Definition child_out (s : st) (F : dom) (A : N) (o : option (option bytes * json)) (r : option addr) : Prop :=
  match o with
  | None => r = None
  | Some kj => exists h, r = Some h /\ child_at s F A h kj
  end.

Section On.
Variables (s : st) (F : dom) (v a : addr) (A : N) (j : json) (f : fnode).
Hypothesis I : inv s F.
Hypothesis H : on s F v a A.
Hypothesis R : reads F a j.
Hypothesis Fa : F a = Some f.

Lemma type_here : ftype (fvalue f) = type_of j.
Proof.
  destruct R as [x g E1 E2|x g t E1 E2|x g t E1 E2|x g t E1 E2|x g ob kids its E1 E2 Rl]; rewrite Fa in E1; injection E1 as <-;
    rewrite E2; auto. now destruct ob.
Qed.
Lemma text_here : ftext TNumber (fvalue f) = num_text j /\ ftext TString (fvalue f) = str_body j.
Proof.
  destruct R as [x g E1 E2|x g t E1 E2|x g t E1 E2|x g t E1 E2|x g ob kids its E1 E2 Rl]; rewrite Fa in E1; injection E1 as <-;
    rewrite E2; auto. now destruct ob.
Qed.
Lemma items_here : readsL F (kids_of (fvalue f)) (items j).
Proof.
  destruct R as [x g E1 E2|x g t E1 E2|x g t E1 E2|x g t E1 E2|x g ob kids its E1 E2 Rl]; rewrite Fa in E1; injection E1 as <-;
    rewrite E2; try constructor. cbn [kids_of].
  destruct (i_dom _ _ I x f Fa) as [D _]. destruct (D ob kids E2) as [Hc _].
  pose proof (readsL_keyed _ _ _ _ _ Hc Rl) as K.
  replace (items (container ob its)) with its; auto. clear - K. unfold container, items. destruct ob; rewrite map_map.
  - rewrite <- (map_id its) at 1. apply map_ext_in. intros [k j] Hi. specialize (K _ Hi). cbn in *. destruct k; [auto|congruence].
  - rewrite <- (map_id its) at 1. apply map_ext_in. intros [k j] Hi. specialize (K _ Hi). cbn in *. now subst.
Qed.
Lemma size_here : lenN (kids_of (fvalue f)) = lenN (items j).
Proof. unfold lenN. now rewrite (readsL_length _ _ _ items_here). Qed.

Lemma stay : untouched s F s. Proof. split; auto. Qed.
Lemma holds_string s1 p b : holds s1 p (b ++ [0]) -> string_at s1 (At p) b. Proof. intro K. exists p. auto. Qed.

(** *** C32 *)
Lemma type_exact : zj_Type v s = Ok (Some (type_of j), s).
Proof. destruct (type_wp s F v A I a f H Fa) as (r & s' & E & -> & ->). now rewrite type_here in E. Qed.
Lemma size_exact : zj_SizeOf v s = Ok (lenN (items j), s).
Proof.
  destruct (size_wp s F v A I a f H Fa) as (r & s' & E & -> & ->). rewrite E. do 2 f_equal. rewrite <- size_here.
  destruct (fvalue f); auto.
Qed.
Lemma isNull_exact : exists r, zj_IsNull v s = Ok (r, s) /\ (r = true <-> j = JNull).
Proof.
  destruct (isNull_wp s F v A I a f H Fa) as (r & s' & E & K & ->). exists r. split; auto. rewrite K.
  destruct R as [x g E1 E2|x g t E1 E2|x g t E1 E2|x g t E1 E2|x g ob kids its E1 E2 Rl]; rewrite Fa in E1; injection E1 as <-;
    rewrite E2; split; try congruence. now destruct ob.
Qed.
Lemma getBool_exact : zj_GetBool v s = Ok (match j with JBool b => Some b | _ => None end, s).
Proof.
  destruct (getBool_wp s F v A I a f H Fa) as (r & s' & E & -> & ->). rewrite E. do 2 f_equal.
  destruct R as [x g E1 E2|x g t E1 E2|x g t E1 E2|x g t E1 E2|x g ob kids its E1 E2 Rl]; rewrite Fa in E1; injection E1 as <-;
    rewrite E2; auto. now destruct ob.
Qed.
Lemma view_text o r s' : view s o r s' -> s' = s /\ text_in s o r. Proof. auto. Qed.
Lemma getStrFast_exact : exists r, zj_GetStrFast v s = Ok (r, s) /\ text_in s (str_body j) r.
Proof.
  destruct (getStrFast_wp s F v A I a f H Fa) as (r & s' & E & -> & K). rewrite (proj2 text_here) in K. eauto.
Qed.
Lemma getNumFast_exact : exists r, zj_GetNumFast v s = Ok (r, s) /\ text_in s (num_text j) r.
Proof.
  destruct (getNumFast_wp s F v A I a f H Fa) as (r & s' & E & -> & K). rewrite (proj1 text_here) in K. eauto.
Qed.
Lemma getKeyFast_exact : exists r, zj_GetKeyFast v s = Ok (r, s) /\ text_in s (fkey f) r.
Proof. destruct (getKeyFast_wp s F v A I a f H Fa) as (r & s' & E & -> & K). eauto. Qed.
Lemma copied_out k o r s' : copied s A k o r s' -> untouched s F s' /\ text_out s' o r.
Proof.
  destruct o as [b|]; cbn.
  - intros (p & -> & X & Fl). split; [eapply ext_untouched; eauto|]. exists (At p). split; auto. apply holds_string. apply Fl.
  - intros [-> ->]. split; auto. apply stay.
Qed.
Lemma getStr_exact : room s A (olen (str_body j) + 1) ->
  exists r s', zj_GetStr v s = Ok (r, s') /\ untouched s F s' /\ text_out s' (str_body j) r.
Proof.
  intro Hr. rewrite <- (proj2 text_here) in *.
  destruct (getStr_wp s F v A I a f H Fa Hr) as (r & s' & E & K). exists r, s'. split; auto. eapply copied_out; eauto.
Qed.
Lemma getNumStr_exact : room s A (olen (num_text j) + 1) ->
  exists r s', zj_GetNumStr v s = Ok (r, s') /\ untouched s F s' /\ text_out s' (num_text j) r.
Proof.
  intro Hr. rewrite <- (proj1 text_here) in *.
  destruct (getNumStr_wp s F v A I a f H Fa Hr) as (r & s' & E & K). exists r, s'. split; auto. eapply copied_out; eauto.
Qed.
Lemma getKey_exact : room s A (olen (fkey f) + 1) ->
  exists r s', zj_GetKey v s = Ok (r, s') /\ untouched s F s' /\ text_out s' (fkey f) r.
Proof.
  intro Hr. destruct (getKey_wp s F v A I a f H Fa Hr) as (r & s' & E & K). exists r, s'. split; auto. eapply copied_out; eauto.
Qed.

(** *** C15 *)
Lemma getUnEscapeStr_exact b o : j = JStr b -> decodes b o -> room s A (lenN b + 1) ->
  exists r s', zj_GetUnEscapeStr v s = Ok (r, s') /\ untouched s F s' /\ text_out s' (Some o) r.
Proof.
  intros Ej D Hr. assert (Ev : fvalue f = VStr b).
  { pose proof (proj2 text_here) as T. rewrite Ej in T. cbn in T. destruct (fvalue f); cbn in T; congruence. }
  destruct (getUnEscapeStr_wp s F v A I a f H Fa b o Ev D Hr) as (r & s' & E & K). exists r, s'. split; auto. eapply copied_out; eauto.
Qed.
Lemma getUnEscapeStr_other : type_of j <> TString -> zj_GetUnEscapeStr v s = Ok (None, s).
Proof.
  intro T. rewrite <- type_here in T. destruct (getUnEscapeStr_no s F v A I a f H Fa T) as (r & s' & E & -> & ->). auto.
Qed.
Lemma getUnEscapeKey_exact b o : fkey f = Some b -> decodes b o -> room s A (lenN b + 1) ->
  exists r s', zj_GetUnEscapeKey v s = Ok (r, s') /\ untouched s F s' /\ text_out s' (Some o) r.
Proof.
  intros Ev D Hr.
  destruct (getUnEscapeKey_wp s F v A I a f H Fa b o Ev D Hr) as (r & s' & E & K). exists r, s'. split; auto. eapply copied_out; eauto.
Qed.
Lemma getUnEscapeKey_none : fkey f = None -> zj_GetUnEscapeKey v s = Ok (None, s).
Proof.
  intro E. pose proof (@with_key_node _ s F v A I a f H Fa word
     (fun x n => l <- rKeyLen n ;; w <- unescape_out (vA x) (nKey n) l ;; ret (Some w)) (fun r s' => r = None /\ s' = s)) as K.
  destruct K as (r & s' & E' & -> & ->); auto. intros n b p E1. congruence.
Qed.

(** *** Children *)
Lemma new_child s' o r kj : new_handle s A (Some o) r s' -> (exists fc, F o = Some fc /\ fkey fc = fst kj /\ reads F o (snd kj)) ->
  untouched s F s' /\ child_out s' F A (Some kj) r.
Proof.
  intros (h & -> & B & U & X) (fc & Fc & K & Rc). split; [eapply ext_untouched; eauto|].
  exists h. split; auto. exists o, fc. split; auto. split; [apply U|]. destruct H as (_ & [Al NA] & _).
  split; [split; auto; now apply (x_alive _ _ _ _ _ X)|]. right. exists o. split; auto. congruence.
Qed.
Lemma nth_child s' i r : new_handle s A (nth_error (kids_of (fvalue f)) i) r s' ->
  untouched s F s' /\ child_out s' F A (nth_error (items j) i) r.
Proof.
  pose proof items_here as Rl. destruct (nth_error (kids_of (fvalue f)) i) as [c|] eqn:E.
  - destruct (readsL_nth _ _ _ Rl i c E) as (fc & jc & Fc & Ei & Rc). rewrite Ei. intro K. eapply new_child; eauto.
  - apply nth_error_None in E. rewrite (readsL_length _ _ _ Rl) in E. apply nth_error_None in E. rewrite E.
    intros [-> ->]. split; [apply stay|reflexivity].
Qed.
(** *** C17 *)
Lemma arrayGet_exact l i : j = JArr l -> i < two32 -> room s A 16 -> forall fuel, (length l <= fuel)%nat ->
  exists r s', zj_ArrayGet fuel v i s = Ok (r, s') /\ untouched s F s' /\
    child_out s' F A (nth_error (items (JArr l)) (N.to_nat i)) r.
Proof.
  intros Ej Hi Hr fuel Hf.
  assert (Ev : exists kids, fvalue f = VCont false kids).
  { pose proof type_here as T. rewrite Ej in T. cbn in T. destruct (fvalue f) as [| | | |[] ks]; try discriminate. eauto. }
  destruct Ev as [kids Ev]. pose proof size_here as Sz. rewrite Ev, Ej in Sz. cbn [kids_of items] in Sz. unfold lenN in Sz. rewrite map_length in Sz.
  destruct (arrayGet_wp s F v A a f I H Fa Hr fuel kids i Ev Hi ltac:(lia)) as (r & s' & E & K).
  exists r, s'. split; auto. replace kids with (kids_of (fvalue f)) in K by now rewrite Ev.
  apply nth_child in K. now rewrite Ej in K.
Qed.
Lemma arrayGet_other i fuel : type_of j <> TArray -> room s A 16 -> zj_ArrayGet fuel v i s = Ok (None, s).
Proof.
  intros T Hr. rewrite <- type_here in T. destruct (arrayGet_no s F v A a f I H Fa fuel i T) as (r & s' & E & -> & ->). auto.
Qed.
(** *** C16 *)
Lemma first_assoc k kids l : forall o, readsL F kids (map (fun kv => (Some (fst kv), snd kv)) l) -> first_child (key_of F k) kids o ->
  match assoc k l with
  | Some jv => exists c fc, o = Some c /\ F c = Some fc /\ fkey fc = Some k /\ reads F c jv
  | None => o = None
  end.
Proof.
  revert kids. induction l as [|[k' j'] l IH]; intros kids o Rl K; cbn [map] in Rl; inversion Rl; subst.
  - cbn [assoc]. destruct o as [c|]; auto. destruct K as (pre & post & E & _). destruct pre; discriminate.
  - cbn [assoc fst] in *. rename c into c', r into kids', fc into fc'. destruct (bytes_eqb k' k) eqn:Ek.
    + apply bytes_eqb_eq in Ek. subst k'. assert (P : key_of F k c') by (exists fc'; auto).
      destruct o as [c|].
      * destruct K as (pre & post & E & Pc & Hpre). destruct pre as [|d pre].
        -- injection E as <- <-. exists c', fc'. auto.
        -- injection E as <- E. exfalso. apply (Hpre c'); [left; auto|auto].
      * exfalso. apply (K c'); [left; auto|auto].
    + assert (NP : ~ key_of F k c').
      { intros (g & G1 & G2). assert (k' = k) by congruence. subst. rewrite (proj2 (bytes_eqb_eq k k) eq_refl) in Ek. discriminate. }
      apply (IH kids'); auto. destruct o as [c|].
      * destruct K as (pre & post & E & Pc & Hpre). destruct pre as [|d pre].
        -- injection E as <- <-. contradiction.
        -- injection E as <- E. exists pre, post. split; auto. split; auto. intros d Hd. apply Hpre. right; auto.
      * intros c Hc. apply K. right; auto.
Qed.
Lemma found_child k l kids r s' : readsL F kids (map (fun kv => (Some (fst kv), snd kv)) l) -> found s A (key_of F k) kids r s' ->
  untouched s F s' /\ child_out s' F A (option_map (fun x => (Some k, x)) (assoc k l)) r.
Proof.
  intros Rl (o & K & N). pose proof (first_assoc k kids l o Rl K) as Z. destruct (assoc k l) as [jv|]; cbn [option_map].
  - destruct Z as (c & fc & -> & Fc & Kc & Rc). eapply new_child; eauto.
  - subst o. destruct N as [-> ->]. split; [apply stay|reflexivity].
Qed.
Lemma obj_here l : j = JObj l -> exists kids, fvalue f = VCont true kids /\ readsL F kids (map (fun kv => (Some (fst kv), snd kv)) l) /\
  length kids = length l.
Proof.
  intro Ej. assert (Ev : exists kids, fvalue f = VCont true kids).
  { pose proof type_here as T. rewrite Ej in T. cbn in T. destruct (fvalue f) as [| | | |[] ks]; try discriminate. eauto. }
  destruct Ev as [kids Ev]. exists kids. split; auto. pose proof items_here as Rl. rewrite Ev, Ej in Rl. cbn [kids_of items] in Rl.
  split; auto. rewrite (readsL_length _ _ _ Rl). now rewrite map_length.
Qed.
Lemma objGet_exact l key k : j = JObj l -> json_ok j -> cstring s key k -> room s A 16 -> forall fuel, (length l <= fuel)%nat ->
  exists r s', zj_ObjGet fuel v key s = Ok (r, s') /\ untouched s F s' /\
    child_out s' F A (option_map (fun x => (Some k, x)) (assoc k l)) r.
Proof.
  intros Ej Jo [N0 [sl Ht]] Hr fuel Hf. destruct (obj_here l Ej) as (kids & Ev & Rl & El).
  destruct (objGet_wp s F v A a f I H Fa Hr fuel kids key k sl Ev Ht N0) as (r & s' & E & K); [|lia|].
  - intros c fc b Hc Fc Kb. apply In_nth_error in Hc as (i & Hi). destruct (readsL_nth _ _ _ Rl i c Hi) as (fc' & jc & Fc' & Ei & _).
    assert (fc' = fc) by congruence. subst fc'. rewrite Kb, nth_error_map in Ei.
    destruct (nth_error l i) as [[k0 j0]|] eqn:En; [|discriminate]. injection Ei as E0 E1. cbn in E0. subst k0.
    apply strbody_no0. apply nth_error_In in En. rewrite Ej in Jo. inversion Jo as [| | | | |l' Fo]; subst.
    rewrite Forall_forall in Fo. apply (Fo _ En).
  - exists r, s'. split; auto. eapply found_child; eauto.
Qed.
Lemma objGetLen_exact l key k : j = JObj l -> holds s key k -> room s A 16 -> forall fuel, (length l <= fuel)%nat ->
  exists r s', zj_ObjGetLen fuel v key (lenN k) s = Ok (r, s') /\ untouched s F s' /\
    child_out s' F A (option_map (fun x => (Some k, x)) (assoc k l)) r.
Proof.
  intros Ej Ht Hr fuel Hf. destruct (obj_here l Ej) as (kids & Ev & Rl & El).
  destruct (objGetLen_wp s F v A a f I H Fa Hr fuel kids key k Ev Ht ltac:(lia)) as (r & s' & E & K).
  exists r, s'. split; auto. eapply found_child; eauto.
Qed.
Lemma objGet_other fuel key : type_of j <> TObject -> room s A 16 ->
  zj_ObjGet fuel v key s = Ok (None, s) /\ forall n, zj_ObjGetLen fuel v key n s = Ok (None, s).
Proof.
  intros T Hr. rewrite <- type_here in T. destruct (objGet_no s F v A a f I H Fa fuel key T) as (r & s' & E & -> & ->).
  split; auto. intro n. destruct (objGetLen_no s F v A a f I H Fa fuel key n T) as (r & s' & E2 & -> & ->). auto.
Qed.
Lemma begin_exact : room s A 16 -> exists r s', zj_Begin v s = Ok (r, s') /\ untouched s F s' /\ child_out s' F A (hd_error (items j)) r.
Proof.
  intro Hr. destruct (begin_wp s F v A a f I H Fa Hr) as (r & s' & E & K). exists r, s'. split; auto.
  replace (hd_error (items j)) with (nth_error (items j) 0) by (now destruct (items j)).
  apply nth_child. now destruct (kids_of (fvalue f)).
Qed.

(** *** C31 *)
Lemma num_here b : j = JNum b -> fvalue f = VNum b.
Proof. intro Ej. pose proof (proj1 text_here) as T. rewrite Ej in T. cbn in T. destruct (fvalue f); cbn in T; congruence. Qed.
Lemma getInt_exact b z : j = JNum b -> int_value b z -> (int_min <= z <= int_max)%Z -> lenN b < 128 -> room s A 4 ->
  exists s', zj_GetInt v s = Ok (Some z, s') /\ untouched s F s'.
Proof.
  intros Ej Hz Rz Hl Hr. destruct (getInt_wp s F v A a f b I H Fa (num_here b Ej) z Hr) as (r & s' & E & -> & X); auto.
  { intro r. apply ato_number; auto. unfold is_digit. lia. }
  exists s'. split; auto. eapply ext_untouched; eauto.
Qed.
Lemma getLong_exact b z c : j = JNum b -> int_value b z -> (long_min <= z <= long_max)%Z -> lenN b <= 128 -> room s A 8 ->
  ~ is_digit c -> (forall p n, zj_GetNumFast v s = Ok (Some (At p, n), s) -> exists r, text_at s p = b ++ c :: r) ->
  (exists s', zj_GetLong v s = Ok (Some z, s') /\ untouched s F s') /\
  (exists s', zj_GetLongLong v s = Ok (Some z, s') /\ untouched s F s').
Proof.
  intros Ej Hz Rz Hl Hr Hc Ht.
  assert (K : exists s', zj_GetLong v s = Ok (Some z, s') /\ untouched s F s').
  { destruct (getLong_wp s F v A a f b I H Fa (num_here b Ej) z Hr) as (r & s' & E & -> & X); auto.
    - intros n p Hn Ep. destruct (i_rep _ _ I a f Fa) as (n' & Hn' & Rp); [auto|]. assert (n' = n) by congruence. subst n'.
      destruct (Ht p (lenN b)) as (r & ->); [|now apply ato_number].
      pose proof (r_val _ _ _ Rp) as Rv. rewrite (num_here b Ej) in Rv. destruct Rv as (T & El & q & Eq & _).
      destruct H as (Hv & _). unfold zj_GetNumFast, with_type, bind, getVal, getNode, get, rType, rLen, deref, is_null, wopt, ret.
      rewrite Hv. cbn [vN vA]. rewrite Hn, T. cbn. rewrite El. cbn. now rewrite Ep.
    - exists s'. split; auto. eapply ext_untouched; eauto. }
  split; auto.
Qed.
End On.

(** *** C18 *)
Lemma walk_exact F A p ob : forall r c kj its fuel s h, inv s F -> chain F p ob (c :: r) -> readsL F (c :: r) (kj :: its) ->
  on s F h c A -> usedA s A + 16 * lenN r <= two30 -> (length r < fuel)%nat ->
  exists hs s', walk fuel (Some h) s = Ok (h :: hs, s') /\ untouched s F s' /\ Forall2 (child_at s' F A) (h :: hs) (kj :: its).
Proof.
  induction r as [|d r IH]; intros c kj its fuel s h I Hc Rl Hh Hu Hf; (destruct fuel as [|fuel]; [lia|]).
  - inversion Rl as [|c0 r0 fc j0 its0 Fc Rc Rr]; subst. inversion Rr; subst. cbn in Hc. destruct Hc as [(fc' & Fc' & _ & Nx & _) _].
    assert (fc' = fc) by congruence. subst fc'.
    assert (E : zj_Next h s = Ok (None, s)).
    { destruct (i_rep _ _ I c fc Fc) as (n & Hn & Rp); [auto|]. destruct Hh as (Hv & _).
      unfold zj_Next, bind, getVal, getNode, get, deref, is_null, ret. rewrite Hv. cbn [vN]. rewrite Hn.
      now rewrite (r_next _ _ _ Rp), Nx. }
    exists [], s. cbn [walk]. unfold bind. rewrite E. cbn. split; [now destruct fuel|]. split; [split; auto|].
    constructor; [|constructor]. exists c, fc. auto.
  - inversion Rl as [|c0 r0 fc j0 its0 Fc Rc Rr]; subst. pose proof Rr as Rr0. inversion Rr as [|d0 r1 fd jd its1 Fd Rd Rr1]; subst.
    destruct Hc as [(fc' & Fc' & _ & Nx & _) Hc]. assert (fc' = fc) by congruence. subst fc'. cbn [hd_error] in Nx.
    assert (Hl : lenN (d :: r) = 1 + lenN r) by (unfold lenN; cbn [length]; lia).
    destruct (next_wp s F h A c fc I Hh Fc ltac:(lia)) as (o & s1 & E1 & K). rewrite Nx in K.
    destruct K as (h1 & -> & B & U & X). pose proof (ext_untouched _ _ _ _ I X) as [I1 U1].
    assert (On1 : on s1 F h1 d A).
    { split; [apply U|]. destruct (U1 _ _ _ Hh) as (_ & Al & _). split; auto. right. exists d. split; auto. congruence. }
    pose proof (x_used _ _ _ _ _ X A) as Ua. rewrite at_eq in Ua.
    destruct (IH d (fkey fd, jd) its1 fuel s1 h1) as (hs & s2 & E2 & [I2 U2] & F2); auto; [lia|cbn [length] in Hf; lia|].
    exists (h1 :: hs), s2. split.
    + cbn [walk]. unfold bind. rewrite E1, E2. reflexivity.
    + split; [split; auto|]. constructor; auto. exists c, fc. split; [apply U2, U1, Hh|auto].
Qed.
Lemma children_exact s F v a A j : inv s F -> on s F v a A -> reads F a j -> room s A (16 * lenN (items j)) ->
  forall fuel, (length (items j) <= fuel)%nat ->
  exists hs s', children fuel v s = Ok (hs, s') /\ untouched s F s' /\ Forall2 (child_at s' F A) hs (items j).
Proof.
  intros I H R Hr fuel Hf. destruct (F a) as [f|] eqn:Fa; [|inversion R; congruence].
  pose proof (items_here s F v a A j f I H R Fa) as Rl.
  destruct (items j) as [|kj its] eqn:Ei.
  - inversion Rl as [Ek|]; subst.
    assert (E : zj_Begin v s = Ok (None, s)).
    { destruct (i_rep _ _ I a f Fa) as (n & Hn & Rp); [auto|]. destruct H as (Hv & _).
      unfold zj_Begin, bind, getVal, getNode, get, rType, deref, is_null, ret. rewrite Hv. cbn [vN]. rewrite Hn, (rep_ftype _ _ _ Rp).
      pose proof (r_val _ _ _ Rp) as Rv. destruct (fvalue f) as [| | | |[] ks]; cbn in *; auto; subst ks; destruct Rv as (_ & -> & _); auto. }
    exists [], s. unfold children, bind. rewrite E. split; [now destruct fuel|]. split; [split; auto|constructor].
  - assert (Hl : lenN (kj :: its) = 1 + lenN its) by (unfold lenN; cbn [length]; lia). unfold room in Hr.
    destruct (begin_wp s F v A a f I H Fa ltac:(lia)) as (o & s1 & E1 & K).
    destruct (kids_of (fvalue f)) as [|c r] eqn:Ek; [inversion Rl|]. cbn [hd_error] in K.
    destruct K as (h1 & -> & B & U & X). pose proof (ext_untouched _ _ _ _ I X) as [I1 U1].
    assert (Fc : F c <> None) by (inversion Rl; congruence).
    assert (On1 : on s1 F h1 c A).
    { split; [apply U|]. destruct (U1 _ _ _ H) as (_ & Al & _). split; auto. right. exists c. split; auto. }
    pose proof (x_used _ _ _ _ _ X A) as Ua. rewrite at_eq in Ua.
    pose proof (readsL_length _ _ _ Rl) as Ll. cbn [length] in Ll, Hf.
    assert (Ch : exists ob, chain F a ob (c :: r)).
    { destruct (i_dom _ _ I a f Fa) as [D _]. destruct (fvalue f) as [| | | |ob ks]; try discriminate. cbn in Ek. subst ks.
      exists ob. now apply D. }
    destruct Ch as [ob Ch].
    destruct (walk_exact F A a ob r c kj its fuel s1 h1) as (hs & s2 & E2 & [I2 U2] & F2); auto; [unfold lenN in *; lia|lia|].
    exists (h1 :: hs), s2. split; [unfold children, bind; now rewrite E1|]. split; [split; auto|auto].
Qed.

Section Empty.
Variables (s : st) (F : dom) (v : addr) (A : N).
Hypothesis H : empty s F v A.
Lemma empty_reads key fuel n :
  zj_Type v s = Ok (None, s) /\ zj_SizeOf v s = Ok (0, s) /\ zj_IsNull v s = Ok (false, s) /\ zj_GetBool v s = Ok (None, s) /\
  zj_GetStr v s = Ok (None, s) /\ zj_GetStrFast v s = Ok (None, s) /\ zj_GetUnEscapeStr v s = Ok (None, s) /\
  zj_GetNumStr v s = Ok (None, s) /\ zj_GetNumFast v s = Ok (None, s) /\
  zj_GetInt v s = Ok (None, s) /\ zj_GetLong v s = Ok (None, s) /\ zj_GetLongLong v s = Ok (None, s) /\
  zj_GetKey v s = Ok (None, s) /\ zj_GetKeyFast v s = Ok (None, s) /\ zj_GetUnEscapeKey v s = Ok (None, s) /\
  zj_ObjGet fuel v key s = Ok (None, s) /\ zj_ObjGetLen fuel v key n s = Ok (None, s) /\ zj_ArrayGet fuel v n s = Ok (None, s) /\
  zj_Begin v s = Ok (None, s) /\ zj_Next v s = Ok (None, s).
Proof.
  assert (G : getVal v s = Ok (mkVal Null A, s)) by (unfold getVal, get; now rewrite (proj1 H)).
  assert (T : forall X t (k : zval -> addr -> node -> M (option X)), with_type v t k s = Ok (None, s))
    by (intros; unfold with_type, bind; now rewrite G).
  assert (K : forall X (k : zval -> node -> M (option X)), with_key v k s = Ok (None, s))
    by (intros; unfold with_key, bind; now rewrite G).
  repeat split; try apply T; try apply K; try (unfold zj_Type, zj_SizeOf, zj_Begin, zj_Next, bind; now rewrite G).
  unfold zj_IsNull, bind. now rewrite T.
Qed.
End Empty.

(** *** C07 *)
(** A call that returns leaves the memory alone. *)
Definition keeps_state {X} (m : M X) : Prop := forall s r s', m s = Ok (r, s') -> s' = s.
Lemma ks_bind {X Y} (m : M X) (k : X -> M Y) : keeps_state m -> (forall x, keeps_state (k x)) -> keeps_state (bind m k).
Proof.
  intros Hm Hk s r s' E. unfold bind in E. destruct (m s) as [[x s1]|e] eqn:E1; [|discriminate].
  apply Hm in E1. subst s1. eapply Hk; eauto.
Qed.
Lemma ks_ret {X} (x : X) : keeps_state (ret x). Proof. intros s r s' E. injection E as _ <-. auto. Qed.
Lemma ks_lift {X} (r : res X) : keeps_state (lift r).
Proof. intros s x s' E. unfold lift in E. destruct r; [injection E as _ <-; auto|discriminate]. Qed.
Lemma ks_get {X} (g : st -> option X) e : keeps_state (get g e).
Proof. intros s x s' E. unfold get in E. destruct (g s); [injection E as _ <-; auto|discriminate]. Qed.
Lemma ks_fail {X} e : keeps_state (@fail X e). Proof. intros s x s' E. discriminate. Qed.
Lemma ks_deref w : keeps_state (deref w).
Proof. destruct w; cbn; auto using @ks_ret, @ks_fail. Qed.
Lemma ks_readable a : keeps_state (readable a). Proof. intros s x s' E. injection E as _ <-. auto. Qed.
Lemma ks_local w n : keeps_state (local_copy w n).
Proof.
  unfold local_copy, load_w. apply ks_bind; [apply ks_bind; [apply ks_deref|intro; apply ks_get]|].
  intro b. destruct (128 <? n); auto using @ks_ret, @ks_fail.
Qed.
Lemma ks_strToInt w n : keeps_state (zj_strToInt w n).
Proof. apply ks_bind; [apply ks_local|intro; apply ks_lift]. Qed.
Lemma ks_strToLong w n : keeps_state (zj_strToLong w n).
Proof.
  apply ks_bind; [apply ks_local|intro]. apply ks_bind; [apply ks_deref|intro]. apply ks_bind; [apply ks_readable|intro; apply ks_lift].
Qed.
Lemma ks_strToDouble w n : keeps_state (zj_strToDouble_text w n).
Proof. apply ks_bind; [apply ks_local|intro]. apply ks_bind; [apply ks_deref|intro; apply ks_readable]. Qed.
Lemma getNumber_keeps {X} (conv : word -> N -> M X) (k : N) s F v a A f r s' : inv s F -> on s F v a A -> F a = Some f ->
  room s A k -> (forall w n, keeps_state (conv w n)) ->
  with_type v TNumber (fun x _ n => zj_allocatorAlloc (vA x) k ;;; l <- rLen n ;; z <- conv (nVal n) l ;; ret (Some z)) s = Ok (r, s') ->
  untouched s F s'.
Proof.
  intros I H Fa Hr Hk E.
  destruct (i_rep _ _ I a f Fa) as (n & Hn & R); [auto|]. pose proof H as (Hv & [Al NA] & _).
  unfold with_type in E. unfold bind at 1, getVal, get in E. rewrite Hv in E. cbn [vN] in E.
  unfold bind at 1 in E. cbn [is_null ret] in E. unfold ret in E at 1. unfold bind at 1, deref, ret at 1 in E.
  unfold bind at 1, getNode, get in E. rewrite Hn in E. unfold bind at 1, rType, lift in E. rewrite (rep_ftype _ _ _ R) in E.
  destruct (jtype_eqb _ _); [|injection E as _ <-; split; auto].
  destruct (alloc_step none none A 0 k s s) as (q & s1 & E1 & X1 & _); auto; [apply ext_start, I|unfold room in Hr; lia|].
  unfold bind at 1 in E. cbn [vA] in E. rewrite E1 in E.
  assert (K : s' = s1).
  { eapply (ks_bind (rLen n) (fun l => z <- conv (nVal n) l ;; ret (Some z))); [apply ks_lift| |exact E].
    intro l. apply ks_bind; [apply Hk|intro; apply (ks_ret (Some x))]. }
  subst s'. eapply ext_untouched; eauto.
Qed.

(** The reading calls on the value [v] ([s] only says where the caller's key is). *)
Inductive reading_call (s : st) (fuel : nat) (v : addr) : forall X : Type, M X -> Prop :=
| rc_Stringify : reading_call s fuel v word (zj_Stringify fuel v)
| rc_Copy : reading_call s fuel v (option addr) (zj_Copy fuel v)
| rc_Type : reading_call s fuel v (option jtype) (zj_Type v)
| rc_SizeOf : reading_call s fuel v N (zj_SizeOf v)
| rc_IsNull : reading_call s fuel v bool (zj_IsNull v)
| rc_GetBool : reading_call s fuel v (option bool) (zj_GetBool v)
| rc_GetStr : reading_call s fuel v (option word) (zj_GetStr v)
| rc_GetStrFast : reading_call s fuel v (option (word * N)) (zj_GetStrFast v)
| rc_GetUnEscapeStr : reading_call s fuel v (option word) (zj_GetUnEscapeStr v)
| rc_GetNumStr : reading_call s fuel v (option word) (zj_GetNumStr v)
| rc_GetNumFast : reading_call s fuel v (option (word * N)) (zj_GetNumFast v)
| rc_GetInt : reading_call s fuel v (option Z) (zj_GetInt v)
| rc_GetLong : reading_call s fuel v (option Z) (zj_GetLong v)
| rc_GetLongLong : reading_call s fuel v (option Z) (zj_GetLongLong v)
| rc_GetDouble : reading_call s fuel v (option bytes) (zj_GetDouble_text v)
| rc_GetKey : reading_call s fuel v (option word) (zj_GetKey v)
| rc_GetKeyFast : reading_call s fuel v (option (word * N)) (zj_GetKeyFast v)
| rc_GetUnEscapeKey : reading_call s fuel v (option word) (zj_GetUnEscapeKey v)
| rc_ObjGet key k : cstring s key k -> reading_call s fuel v (option addr) (zj_ObjGet fuel v key)
| rc_ObjGetLen key k : holds s key k -> reading_call s fuel v (option addr) (zj_ObjGetLen fuel v key (lenN k))
| rc_ArrayGet i : i < two32 -> reading_call s fuel v (option addr) (zj_ArrayGet fuel v i)
| rc_Begin : reading_call s fuel v (option addr) (zj_Begin v)
| rc_Next : reading_call s fuel v (option addr) (zj_Next v).

(** Room enough for any of them: to print, to copy, to unescape, to make a value. *)
Definition read_cost (k : option bytes) (j : json) : N :=
  print_cost (lenN (print j)) + (88 + icost (k, j)) + olen k + olen (str_body j) + olen (num_text j).

Lemma jsteps_items j : (length (items j) <= jsteps j)%nat.
Proof.
  assert (K : forall X (g : X -> nat) l, (length l <= list_sum (map (fun x => S (g x)) l))%nat).
  { clear. intros X g l. induction l as [|x l IH]; cbn; [lia|]. unfold list_sum in *. lia. }
  destruct j as [| | | |l|l]; cbn [items length jsteps]; try lia; rewrite map_length.
  - pose proof (K _ jsteps l). lia.
  - apply le_S. etransitivity; [apply (K _ (fun kv : bytes * json => jsteps (snd kv)) l)|].
    apply Nat.eq_le_incl. f_equal. apply map_ext. intros [k x]. reflexivity.
Qed.
Lemma reading_keeps s F v a A j f fuel X (m : M X) r s' : inv s F -> on s F v a A -> reads F a j -> F a = Some f -> json_ok j ->
  (forall k, fkey f = Some k -> strbody k) -> room s A (read_cost (fkey f) j) -> (jsteps j < fuel)%nat -> reading_call s fuel v X m -> m s = Ok (r, s') -> untouched s F s'.
Proof.
  intros I H R Fa Jo Ko Hr Hf C E. pose proof (jsteps_items j) as Li.
  assert (R16 : room s A 16) by (unfold room, read_cost in *; lia).
  assert (St : untouched s F s) by (split; auto).
  destruct C.
  - destruct (stringify_content s F v a A j I H R) with (fuel := fuel) as (p & s1 & E1 & _ & X1); [unfold room, read_cost in *; lia|lia|].
    assert (s' = s1) by congruence. subst. eapply ext_untouched; eauto.
  - destruct (copy_wp s F v a A j fuel f I H Fa R) as (o & s1 & E1 & h & F' & n & _ & _ & _ & _ & _ & X1);
      [unfold room, read_cost in *; lia|lia|]. assert (s' = s1) by congruence. subst. eapply ext_untouched; eauto.
  - pose proof (type_exact s F v a A j f I H R Fa). congruence.
  - pose proof (size_exact s F v a A j f I H R Fa). congruence.
  - destruct (isNull_exact s F v a A j f I H R Fa) as (x & E1 & _). congruence.
  - pose proof (getBool_exact s F v a A j f I H R Fa). congruence.
  - destruct (getStr_exact s F v a A j f I H R Fa) as (x & s1 & E1 & U & _); [unfold room, read_cost in *; lia|]. congruence.
  - destruct (getStrFast_exact s F v a A j f I H R Fa) as (x & E1 & _). congruence.
  - destruct (str_body j) as [b|] eqn:Eb.
    + destruct j; try discriminate. injection Eb as ->. inversion Jo as [| | |b' [o D]| |]; subst.
      destruct (getUnEscapeStr_exact s F v a A (JStr b) f I H R Fa b o eq_refl D) as (x & s1 & E1 & U & _);
        [unfold room, read_cost in *; cbn [olen str_body] in *; lia|]. congruence.
    + pose proof (getUnEscapeStr_other s F v a A j f I H R Fa) as K. rewrite K in E; [congruence|]. destruct j; discriminate.
  - destruct (getNumStr_exact s F v a A j f I H R Fa) as (x & s1 & E1 & U & _); [unfold room, read_cost in *; lia|]. congruence.
  - destruct (getNumFast_exact s F v a A j f I H R Fa) as (x & E1 & _). congruence.
  - eapply (getNumber_keeps zj_strToInt 4); eauto; [unfold room, read_cost in *; lia|apply ks_strToInt].
  - eapply (getNumber_keeps zj_strToLong 8); eauto; [unfold room, read_cost in *; lia|apply ks_strToLong].
  - eapply (getNumber_keeps zj_strToLong 8); eauto; [unfold room, read_cost in *; lia|apply ks_strToLong].
  - eapply (getNumber_keeps zj_strToDouble_text 8); eauto; [unfold room, read_cost in *; lia|apply ks_strToDouble].
  - destruct (getKey_exact s F v a A f I H Fa) as (x & s1 & E1 & U & _); [unfold room, read_cost in *; lia|]. congruence.
  - destruct (getKeyFast_exact s F v a A f I H Fa) as (x & E1 & _). congruence.
  - destruct (fkey f) as [b|] eqn:Ek.
    + destruct (Ko b eq_refl) as [o D].
      destruct (getUnEscapeKey_exact s F v a A f I H Fa b o Ek D) as (x & s1 & E1 & U & _);
        [unfold room, read_cost in *; cbn [olen] in *; lia|]. congruence.
    + pose proof (getUnEscapeKey_none s F v a A f I H Fa Ek). congruence.
  - destruct (jtype_eqb (type_of j) TObject) eqn:T.
    + destruct j as [| | | | |l]; try discriminate. cbn [items] in Li. rewrite map_length in Li.
      destruct (objGet_exact s F v a A (JObj l) f I H R Fa l key k eq_refl Jo H0 R16 fuel ltac:(lia)) as (x & s1 & E1 & U & _). congruence.
    + destruct (objGet_other s F v a A j f I H R Fa fuel key) as [E1 _]; auto; [|congruence].
      intro T'. apply jtype_eqb_eq in T'. congruence.
  - destruct (jtype_eqb (type_of j) TObject) eqn:T.
    + destruct j as [| | | | |l]; try discriminate. cbn [items] in Li. rewrite map_length in Li.
      destruct (objGetLen_exact s F v a A (JObj l) f I H R Fa l key k eq_refl H0 R16 fuel ltac:(lia)) as (x & s1 & E1 & U & _). congruence.
    + destruct (objGet_other s F v a A j f I H R Fa fuel key) as [_ E1]; auto; [|specialize (E1 (lenN k)); congruence].
      intro T'. apply jtype_eqb_eq in T'. congruence.
  - destruct (jtype_eqb (type_of j) TArray) eqn:T.
    + destruct j as [| | | |l|]; try discriminate. cbn [items] in Li. rewrite map_length in Li.
      destruct (arrayGet_exact s F v a A (JArr l) f I H R Fa l i eq_refl H0 R16 fuel ltac:(lia)) as (x & s1 & E1 & U & _). congruence.
    + pose proof (arrayGet_other s F v a A j f I H R Fa i fuel) as E1. rewrite E1 in E; auto; [congruence|].
      intro T'. apply jtype_eqb_eq in T'. congruence.
  - destruct (begin_exact s F v a A j f I H R Fa R16) as (x & s1 & E1 & U & _). congruence.
  - destruct (next_wp s F v A a f I H Fa R16) as (x & s1 & E1 & K). assert (s' = s1) by congruence. subst s'.
    destruct (fnext f); [destruct K as (h & _ & _ & _ & X1); eapply ext_untouched; eauto|]. destruct K as [_ ->]. auto.
Qed.
(** Any sequence of reading calls.  After each call the documents looked at may be
    enlarged by what the call made (a copy). *)
Inductive reading_calls : st -> dom -> st -> dom -> Prop :=
| rs_nil s F : reading_calls s F s F
| rs_cons s F v a A j f fuel X m r s1 F1 s2 F2 : on s F v a A -> reads F a j -> F a = Some f -> json_ok j ->
    (forall k, fkey f = Some k -> strbody k) -> room s A (read_cost (fkey f) j) -> (jsteps j < fuel)%nat ->
    reading_call s fuel v X m -> m s = Ok (r, s1) -> inv s1 F1 -> submap F F1 ->
    reading_calls s1 F1 s2 F2 -> reading_calls s F s2 F2.
Lemma handle_submap s F F' u w A : submap F F' -> handle s F u w A -> handle s F' u w A.
Proof.
  intros Sb (H1 & H2 & H3). split; auto. split; auto. destruct H3 as [H3|(a & E & Fa)]; auto. right. exists a. split; auto.
  destruct (F a) as [f|] eqn:Ea; [|congruence]. rewrite (Sb a f Ea). discriminate.
Qed.
Lemma reading_frame s F s' F' : reading_calls s F s' F' -> inv s F -> inv s' F' /\
  (forall u j, content s F u j -> content s' F' u j) /\ (forall u k, key_is s F u k -> key_is s' F' u k) /\
  (forall u A, empty s F u A -> empty s' F' u A).
Proof.
  intros C. induction C as [s F|s F v a A j f fuel X m r s1 F1 s2 F2 H R Fa Jo Ko Hr Hf Cl E I1 Sb C IH]; intro I; [auto|].
  pose proof (reading_keeps s F v a A j f fuel X m r s1 I H R Fa Jo Ko Hr Hf Cl E) as [_ U].
  destruct (IH I1) as (I2 & K1 & K2 & K3). split; auto. split; [|split].
  - intros u ju (x & B & Hu & Ru). apply K1. exists x, B. split; [eapply handle_submap; [exact Sb|now apply U]|eapply reads_submap; eauto].
  - intros u k (x & B & g & Hu & Gx & Kx). apply K2. exists x, B, g. split; [eapply handle_submap; [exact Sb|now apply U]|]. split; auto.
  - intros u B Hu. apply K3. eapply handle_submap; [exact Sb|]. now apply U.
Qed.
End WithVol.
