(** Reading: types, texts, numbers, keys, lookups, iteration. *)
From Verif Require Import Base Spec Lex LexProofs Alloc AllocProofs Mem MemProofs Api PureParse Dom Steps StrBuf StringifyProofs ParseProofs ParseTop CacheProofs SetProofs IntProofs EscProofs Update.

Section WithVol.
Context {VV : vols}.

Definition ftype (x : fval) : jtype :=
  match x with
  | VNull => TNull | VBool _ => TBool | VNum _ => TNumber | VStr _ => TString
  | VCont true _ => TObject | VCont false _ => TArray
  end.
Lemma rep_ftype s n f : rep_node s n f -> nType n = Some (ftype (fvalue f)).
Proof.
  intros [_ H _ _ _ _]. destruct (fvalue f) as [| | | |[] ks]; apply H.
Qed.
Lemma jtype_eqb_eq a b : jtype_eqb a b = true <-> a = b.
Proof. destruct a, b; simpl; split; congruence. Qed.

Section Get.
Variables (s : st) (F : dom) (v : addr) (A : N).
Hypothesis I : inv s F.

Section Empty.
Hypothesis H : handle s F v Null A.
Lemma with_type_empty {X} t (k : zval -> addr -> node -> M (option X)) (Q : option X -> st -> Prop) :
  Q None s -> wp (with_type v t k) s Q.
Proof.
  intro K. unfold with_type. apply wp_bind, (wp_getVal _ _ _ _ (proj1 H)). cbn [vN].
  apply wp_bind, wp_is_null with (b := true); auto. now apply wp_ret.
Qed.
Lemma with_key_empty {X} (k : zval -> node -> M (option X)) (Q : option X -> st -> Prop) :
  Q None s -> wp (with_key v k) s Q.
Proof.
  intro K. unfold with_key. apply wp_bind, (wp_getVal _ _ _ _ (proj1 H)). cbn [vN].
  apply wp_bind, wp_is_null with (b := true); auto. now apply wp_ret.
Qed.
End Empty.

Section Node.
Variables (a : addr) (f : fnode).
Hypothesis H : handle s F v (At a) A.
Hypothesis Fa : F a = Some f.

Lemma with_type_node {X} t (k : zval -> addr -> node -> M (option X)) (Q : option X -> st -> Prop) :
  (ftype (fvalue f) <> t -> Q None s) ->
  (forall n, ftype (fvalue f) = t -> snodes s a = Some n -> rep_node s n f -> wp (k (mkVal (At a) A) a n) s Q) ->
  wp (with_type v t k) s Q.
Proof.
  intros K1 K2. unfold with_type. apply wp_bind, (wp_getVal _ _ _ _ (proj1 H)). cbn [vN].
  apply wp_bind, wp_is_null with (b := false); auto. cbv iota. apply wp_bind, wp_deref.
  destruct (i_rep _ _ I a f Fa) as (n & Hn & R); [auto|].
  apply wp_bind, (wp_getNode _ n); auto. apply wp_bind, (wp_rType _ _ _ _ (rep_ftype _ _ _ R)).
  destruct (jtype_eqb (ftype (fvalue f)) t) eqn:E.
  - apply K2; auto. now apply jtype_eqb_eq.
  - apply wp_ret, K1. intro E'. apply jtype_eqb_eq in E'. congruence.
Qed.
Lemma with_key_node {X} (k : zval -> node -> M (option X)) (Q : option X -> st -> Prop) :
  (fkey f = None -> Q None s) ->
  (forall n b p, fkey f = Some b -> snodes s a = Some n -> rep_node s n f -> nKey n = At p ->
     nKeyLen n = Some (lenN b) -> safetext s p b -> wp (k (mkVal (At a) A) n) s Q) ->
  wp (with_key v k) s Q.
Proof.
  intros K1 K2. unfold with_key. apply wp_bind, (wp_getVal _ _ _ _ (proj1 H)). cbn [vN].
  apply wp_bind, wp_is_null with (b := false); auto. cbv iota. apply wp_bind, wp_deref.
  destruct (i_rep _ _ I a f Fa) as (n & Hn & R); [auto|].
  apply wp_bind, (wp_getNode _ n); auto. pose proof (r_key _ _ _ R) as Rk.
  destruct (fkey f) as [b|]; simpl in Rk.
  - destruct Rk as (p & E1 & E2 & E3). rewrite E1. apply wp_bind, wp_is_null with (b := false); auto. cbv iota. eauto.
  - rewrite Rk. apply wp_bind, wp_is_null with (b := true); auto. apply wp_ret. auto.
Qed.

(** *** zj_Type, zj_SizeOf, zj_IsNull, zj_GetBool *)
Lemma type_wp : wp (zj_Type v) s (fun r s' => r = Some (ftype (fvalue f)) /\ s' = s).
Proof.
  unfold zj_Type. apply wp_bind, (wp_getVal _ _ _ _ (proj1 H)). cbn [vN].
  apply wp_bind, wp_is_null with (b := false); auto. cbv iota. apply wp_bind, wp_deref.
  destruct (i_rep _ _ I a f Fa) as (n & Hn & R); [auto|].
  apply wp_bind, (wp_getNode _ n); auto. apply wp_bind, (wp_rType _ _ _ _ (rep_ftype _ _ _ R)). now apply wp_ret.
Qed.
Definition fsize (x : fval) : N := match x with VCont _ kids => lenN kids | _ => 0 end.
Lemma size_wp : wp (zj_SizeOf v) s (fun r s' => r = fsize (fvalue f) /\ s' = s).
Proof.
  unfold zj_SizeOf. apply wp_bind, (wp_getVal _ _ _ _ (proj1 H)). cbn [vN].
  apply wp_bind, wp_is_null with (b := false); auto. cbv iota. apply wp_bind, wp_deref.
  destruct (i_rep _ _ I a f Fa) as (n & Hn & R); [auto|].
  apply wp_bind, (wp_getNode _ n); auto. apply wp_bind, (wp_rType _ _ _ _ (rep_ftype _ _ _ R)).
  pose proof (r_val _ _ _ R) as Rv. destruct (fvalue f) as [| | | |[] ks]; cbn [ftype is_container jtype_eqb orb fsize];
    try (apply wp_ret; auto); apply (wp_rLen _ (lenN ks)); auto; apply Rv.
Qed.
Lemma isNull_wp : wp (zj_IsNull v) s (fun r s' => (r = true <-> fvalue f = VNull) /\ s' = s).
Proof.
  unfold zj_IsNull. eapply wp_seq with (P := fun r s' => (r <> None <-> fvalue f = VNull) /\ s' = s).
  - apply with_type_node.
    + intro E. split; auto. split; [congruence|]. intro E'. rewrite E' in E. now elim E.
    + intros n E _ _. apply wp_ret. split; auto. split; [|discriminate]. intros _.
      destruct (fvalue f) as [| | | |[] ks]; try discriminate. auto.
  - intros r s' [E ->]. apply wp_ret. split; auto. rewrite <- E. destruct r; split; congruence.
Qed.
Lemma getBool_wp : wp (zj_GetBool v) s (fun r s' =>
  r = match fvalue f with VBool b => Some b | _ => None end /\ s' = s).
Proof.
  unfold zj_GetBool. apply with_type_node.
  - intro E. split; auto. destruct (fvalue f); auto. now elim E.
  - intros n E _ R. pose proof (r_val _ _ _ R) as Rv. destruct (fvalue f) as [|b| | |[] ks]; try discriminate.
    destruct Rv as (_ & _ & p & E1 & Sf). rewrite E1. apply wp_bind. unfold load_w. apply wp_bind, wp_deref.
    destruct Sf as [Sf _]. apply (wp_load p 1 (firstn 1 (bool_text b))).
    + intros i x Ex. apply Sf. destruct b, i as [|[|]]; simpl in Ex |- *; auto; discriminate.
    + now destruct b.
    + apply wp_ret. split; auto. now destruct b.
Qed.

(** *** Texts *)
Definition ftext (t : jtype) (x : fval) : option bytes :=
  match t, x with
  | TNumber, VNum b | TString, VStr b => Some b
  | _, _ => None
  end.
Lemma with_text {X} t (k : zval -> addr -> node -> M (option X)) (Q : option X -> st -> Prop) : t = TNumber \/ t = TString ->
  (ftext t (fvalue f) = None -> Q None s) ->
  (forall n b p, ftext t (fvalue f) = Some b -> nLen n = Some (lenN b) -> nVal n = At p -> safetext s p b ->
     wp (k (mkVal (At a) A) a n) s Q) ->
  wp (with_type v t k) s Q.
Proof.
  intros Ht K1 K2. apply with_type_node.
  - intro E. apply K1. destruct Ht as [->| ->], (fvalue f) as [| | | |[] ks]; auto; now elim E.
  - intros n E _ R. pose proof (r_val _ _ _ R) as Rv.
    destruct Ht as [->| ->], (fvalue f) as [| |b|b|[] ks]; try discriminate;
      destruct Rv as (_ & E2 & p & E1 & Sf); eapply K2; eauto; reflexivity.
Qed.
(** The pointer and length of the text in place. *)
Definition view (o : option bytes) (r : option (word * N)) (s' : st) : Prop :=
  s' = s /\ match o with
            | None => r = None
            | Some b => exists p, r = Some (At p, lenN b) /\ holds s p b
            end.
(** A new 0-terminated copy. *)
Definition copied (k : N) (o : option bytes) (r : option word) (s' : st) : Prop :=
  match o with
  | None => r = None /\ s' = s
  | Some b => exists p, r = Some (At p) /\ ext none none (at_ A k) s s' /\ filled s s' p (b ++ [0])
  end.
Lemma getFast_wp t : t = TNumber \/ t = TString ->
  wp (with_type v t (fun _ _ n => l <- rLen n ;; ret (Some (nVal n, l)))) s (view (ftext t (fvalue f))).
Proof.
  intro Ht. apply with_text; auto.
  - intro E. split; auto. rewrite E. auto.
  - intros n b p E El Ev Sf. apply wp_bind, (wp_rLen _ _ _ _ El). apply wp_ret. split; auto. rewrite E.
    exists p. rewrite Ev. split; auto. apply Sf.
Qed.
Lemma getStrFast_wp : wp (zj_GetStrFast v) s (view (ftext TString (fvalue f))).
Proof. apply getFast_wp. auto. Qed.
Lemma getNumFast_wp : wp (zj_GetNumFast v) s (view (ftext TNumber (fvalue f))).
Proof. apply getFast_wp. auto. Qed.
Definition olen (o : option bytes) : N := match o with Some b => lenN b | None => 0 end.
Lemma getCopy_wp t : t = TNumber \/ t = TString -> usedA s A + (olen (ftext t (fvalue f)) + 1) <= two30 ->
  wp (with_type v t (fun x _ n => l <- rLen n ;; w <- copy_out (vA x) (nVal n) l ;; ret (Some w))) s
     (copied (olen (ftext t (fvalue f)) + 1) (ftext t (fvalue f))).
Proof.
  intros Ht Hu. pose proof H as (_ & [Al NA] & _). apply with_text; auto.
  - intro E. rewrite E. split; auto.
  - intros n b p E El Ev Sf. rewrite E in *. cbn [olen] in *. apply wp_bind, (wp_rLen _ _ _ _ El). rewrite Ev. cbn [vA].
    eapply wp_seq; [apply copy_out_wp; auto; try apply I; apply Sf|].
    intros w s' (q & -> & X & Fl). apply wp_ret. exists q. auto.
Qed.
Lemma getStr_wp : usedA s A + (olen (ftext TString (fvalue f)) + 1) <= two30 ->
  wp (zj_GetStr v) s (copied (olen (ftext TString (fvalue f)) + 1) (ftext TString (fvalue f))).
Proof. apply getCopy_wp. auto. Qed.
Lemma getNumStr_wp : usedA s A + (olen (ftext TNumber (fvalue f)) + 1) <= two30 ->
  wp (zj_GetNumStr v) s (copied (olen (ftext TNumber (fvalue f)) + 1) (ftext TNumber (fvalue f))).
Proof. apply getCopy_wp. auto. Qed.
(** Unescaped: [o] is what the text denotes. *)
Lemma getUnEscapeStr_wp b o : fvalue f = VStr b -> decodes b o -> usedA s A + (lenN b + 1) <= two30 ->
  wp (zj_GetUnEscapeStr v) s (copied (lenN b + 1) (Some o)).
Proof.
  intros Ev Hd Hu. pose proof H as (_ & [Al NA] & _). apply with_text; auto.
  - rewrite Ev. discriminate.
  - intros n b' p E El En Sf. rewrite Ev in E. injection E as <-. apply wp_bind, (wp_rLen _ _ _ _ El). rewrite En. cbn [vA].
    eapply wp_seq; [apply unescape_out_wp; eauto; try apply I; apply Sf|].
    intros w s' (q & -> & X & Fl). apply wp_ret. exists q. auto.
Qed.
Lemma getUnEscapeStr_no : ftype (fvalue f) <> TString -> wp (zj_GetUnEscapeStr v) s (fun r s' => r = None /\ s' = s).
Proof. intro E. apply with_type_node; auto. intros n E'. congruence. Qed.

(** *** Keys *)
Lemma getKeyFast_wp : wp (zj_GetKeyFast v) s (view (fkey f)).
Proof.
  apply with_key_node.
  - intro E. split; auto. rewrite E. auto.
  - intros n b p E _ _ Ek El Sf. apply wp_bind, (wp_rKeyLen _ _ _ _ El). apply wp_ret. split; auto. rewrite E.
    exists p. rewrite Ek. split; auto. apply Sf.
Qed.
Lemma getKey_wp : usedA s A + (olen (fkey f) + 1) <= two30 -> wp (zj_GetKey v) s (copied (olen (fkey f) + 1) (fkey f)).
Proof.
  intro Hu. pose proof H as (_ & [Al NA] & _). apply with_key_node.
  - intro E. rewrite E. split; auto.
  - intros n b p E _ _ Ek El Sf. rewrite E in *. cbn [olen] in *. apply wp_bind, (wp_rKeyLen _ _ _ _ El). rewrite Ek. cbn [vA].
    eapply wp_seq; [apply copy_out_wp; auto; try apply I; apply Sf|].
    intros w s' (q & -> & X & Fl). apply wp_ret. exists q. auto.
Qed.
Lemma getUnEscapeKey_wp b o : fkey f = Some b -> decodes b o -> usedA s A + (lenN b + 1) <= two30 ->
  wp (zj_GetUnEscapeKey v) s (copied (lenN b + 1) (Some o)).
Proof.
  intros Ev Hd Hu. pose proof H as (_ & [Al NA] & _). apply with_key_node.
  - congruence.
  - intros n b' p E _ _ Ek El Sf. rewrite Ev in E. injection E as <-. apply wp_bind, (wp_rKeyLen _ _ _ _ El). rewrite Ek. cbn [vA].
    eapply wp_seq; [apply unescape_out_wp; eauto; try apply I; apply Sf|].
    intros w s' (q & -> & X & Fl). apply wp_ret. exists q. auto.
Qed.
End Node.
End Get.

(** ** Looking up children *)
Lemma strIsEqual_ok k r : ~ In 0 k -> forall b, ~ In 0 b ->
  exists e, zj_strIsEqual (k ++ 0 :: r) b = Ok e /\ (e = true <-> b = k).
Proof.
  induction k as [|x k IH]; intros N0 b Nb; destruct b as [|y b]; simpl.
  - exists true. split; auto. tauto.
  - destruct (N.eqb_spec 0 y) as [<-|N]; [elim Nb; left; auto|]. exists false. split; auto. split; congruence.
  - exists (x =? 0). split; auto. destruct (N.eqb_spec x 0) as [->|N]; [elim N0; left; auto|]. split; congruence.
  - destruct (N.eqb_spec x y) as [<-|N].
    + destruct (IH (fun h => N0 (or_intror h)) b (fun h => Nb (or_intror h))) as (e & E1 & E2).
      exists e. split; auto. rewrite E2. split; congruence.
    + exists false. split; auto. split; congruence.
Qed.
Lemma bytes_eqb_eq a : forall b, bytes_eqb a b = true <-> a = b.
Proof.
  induction a as [|x a IH]; intros [|y b]; simpl; try (split; congruence).
  rewrite andb_true_iff, N.eqb_eq, IH. split; [intros [-> ->]; auto|intro E; injection E; auto].
Qed.

(** [l] split at the first child satisfying [P]. *)
Definition first_child (P : addr -> Prop) (kids : list addr) (r : option addr) : Prop :=
  match r with
  | None => forall c, In c kids -> ~ P c
  | Some c => exists pre post, kids = pre ++ c :: post /\ P c /\ forall d, In d pre -> ~ P d
  end.
Lemma find_wp s F p ob test (P : addr -> Prop) : inv s F -> forall kids fuel, chain F p ob kids ->
  (forall c f n, In c kids -> F c = Some f -> snodes s c = Some n -> rep_node s n f ->
     wp (test n) s (fun b s' => s' = s /\ (b = true <-> P c))) ->
  (length kids <= fuel)%nat ->
  wp (find_node fuel test (wopt (hd_error kids))) s (fun r s' => s' = s /\ first_child P kids r).
Proof.
  intros I. induction kids as [|c kids IH]; intros fuel Hc Ht Hf.
  - destruct fuel; simpl; (apply wp_bind, wp_ret; cbv iota; apply wp_ret; split; auto; intros c []).
  - destruct fuel as [|fuel]; [simpl in Hf; lia|]. cbn [find_node hd_error wopt].
    apply wp_bind, wp_is_null with (b := false); auto. cbv iota. apply wp_bind, wp_deref.
    destruct Hc as [(fc & H1 & H2 & H3 & H4) Hc].
    destruct (i_rep _ _ I c fc H1) as (n & Hn & R); [auto|].
    apply wp_bind, (wp_getNode _ n); auto.
    eapply wp_seq; [apply (Ht c fc n); simpl; auto|]. intros b s' [-> Hb]. destruct b.
    + apply wp_ret. split; auto. exists [], kids. split; auto. split; [apply Hb; auto|]. intros d [].
    + rewrite (r_next _ _ _ R), H3.
      eapply wp_mono; [apply IH; auto|].
      * intros c' f' n' Hi. apply Ht. simpl; auto.
      * simpl in Hf. lia.
      * intros r s' [-> K]. split; auto.
        assert (NP : ~ P c) by (intro K'; apply Hb in K'; discriminate).
        destruct r as [d|]; simpl in *.
        -- destruct K as (pre & post & -> & K1 & K2). exists (c :: pre), post. split; auto. split; auto.
           intros e [<-|He]; auto.
        -- intros d [<-|Hd]; auto.
Qed.
Lemma nth_wp s F p ob index : inv s F -> forall kids fuel i, chain F p ob kids -> i <= index -> index < two32 ->
  (length kids <= fuel)%nat ->
  wp (nth_node fuel i index (wopt (hd_error kids))) s (fun r s' => s' = s /\ r = nth_error kids (N.to_nat (index - i))).
Proof.
  intros I. induction kids as [|c kids IH]; intros fuel i Hc Hi H32 Hf.
  - destruct fuel; simpl; (apply wp_bind, wp_ret; cbv iota; apply wp_ret; split; auto);
      now destruct (N.to_nat (index - i)).
  - destruct fuel as [|fuel]; [simpl in Hf; lia|]. cbn [nth_node hd_error wopt].
    apply wp_bind, wp_is_null with (b := false); auto. cbv iota. apply wp_bind, wp_deref.
    destruct (N.eqb_spec i index) as [->|N].
    + apply wp_ret. split; auto. now rewrite N.sub_diag.
    + destruct Hc as [(fc & H1 & H2 & H3 & H4) Hc].
      destruct (i_rep _ _ I c fc H1) as (n & Hn & R); [auto|].
      apply wp_bind, (wp_getNode _ n); auto. rewrite (r_next _ _ _ R), H3.
      assert (Eu : u32 (i + 1) = i + 1) by (apply u32_small; lia). rewrite Eu.
      eapply wp_mono; [apply IH; auto; [lia|simpl in Hf; lia]|].
      intros r s' [-> ->]. split; auto. replace (N.to_nat (index - i)) with (S (N.to_nat (index - (i + 1)))) by lia.
      reflexivity.
Qed.

(** A new handle for a node. *)
Definition new_handle (s : st) (A : N) (o : option addr) (r : option addr) (s' : st) : Prop :=
  match o with
  | None => r = None /\ s' = s
  | Some a => exists h, r = Some h /\ beyond s h /\ vnew s s' h (mkVal (At a) A) /\ ext none none (at_ A 16) s s'
  end.
Lemma to_handle_wp s A o : wfst s -> alive s A -> usedA s A + 16 <= two30 -> wp (to_handle A o) s (new_handle s A o).
Proof.
  intros W Al Hu. destruct o as [a|]; [|now apply wp_ret].
  unfold to_handle. eapply wp_seq; [eapply (newval_step none none A 0 s s (At a)); auto; [now apply ext_start|lia]|].
  intros h s' (X & B & U). apply wp_ret. exists h. auto.
Qed.

Section Children.
Variables (s : st) (F : dom) (v : addr) (A : N) (a : addr) (f : fnode).
Hypothesis I : inv s F.
Hypothesis H : handle s F v (At a) A.
Hypothesis Fa : F a = Some f.
Hypothesis Hu : usedA s A + 16 <= two30.

Definition key_of (k : bytes) (c : addr) : Prop := exists fc, F c = Some fc /\ fkey fc = Some k.
Definition found (P : addr -> Prop) (kids : list addr) (r : option addr) (s' : st) : Prop :=
  exists o, first_child P kids o /\ new_handle s A o r s'.

Lemma kids_chain ob kids : fvalue f = VCont ob kids -> chain F a ob kids /\ lenN kids < two32.
Proof. intro E. destruct (i_dom _ _ I a f Fa) as [D _]. auto. Qed.
Lemma objGet_wp fuel kids key k r : fvalue f = VCont true kids -> text_at s key = k ++ 0 :: r -> ~ In 0 k ->
  (forall c fc b, In c kids -> F c = Some fc -> fkey fc = Some b -> ~ In 0 b) -> (length kids <= fuel)%nat ->
  wp (zj_ObjGet fuel v key) s (found (key_of k) kids).
Proof.
  intros Ev Ht N0 Hk Hf. pose proof H as (_ & [Al NA] & _). destruct (kids_chain true kids Ev) as [Hc _].
  unfold zj_ObjGet. eapply with_type_node; eauto; [rewrite Ev; intro E; now elim E|].
  intros n _ Hn R. pose proof (r_val _ _ _ R) as Rv. rewrite Ev in Rv. destruct Rv as (_ & Ehd & _). rewrite Ehd.
  eapply wp_seq; [apply (find_wp s F a true _ (key_of k) I kids); auto|].
  - intros c fc m Hi Fc Hm Rm. destruct (chain_in _ _ _ _ c Hc Hi) as (fc' & E1 & E2 & E3).
    assert (fc' = fc) by congruence. subst fc'. pose proof (r_key _ _ _ Rm) as Rk.
    destruct (fkey fc) as [b|] eqn:Ek; [|congruence]. destruct Rk as (p & K1 & K2 & K3 & _).
    apply wp_bind, (wp_rKeyLen _ _ _ _ K2). apply wp_bind. unfold load_w. apply wp_bind. rewrite K1. apply wp_deref.
    apply (wp_load p _ b); auto. apply wp_bind, wp_readable. rewrite Ht.
    destruct (strIsEqual_ok k r N0 b (Hk c fc b Hi Fc Ek)) as (e & G1 & G2).
    apply (wp_lift _ e); auto. split; auto. rewrite G2. unfold key_of. split.
    + intros ->. exists fc. auto.
    + intros (g & G3 & G4). congruence.
  - intros o s' [-> K]. eapply wp_mono; [apply to_handle_wp; auto; apply I|].
    intros r' s'' Hh. exists o. auto.
Qed.
Lemma objGetLen_wp fuel kids key k : fvalue f = VCont true kids -> holds s key k -> (length kids <= fuel)%nat ->
  wp (zj_ObjGetLen fuel v key (lenN k)) s (found (key_of k) kids).
Proof.
  intros Ev Ht Hf. pose proof H as (_ & [Al NA] & _). destruct (kids_chain true kids Ev) as [Hc _].
  unfold zj_ObjGetLen. eapply with_type_node; eauto; [rewrite Ev; intro E; now elim E|].
  intros n _ Hn R. pose proof (r_val _ _ _ R) as Rv. rewrite Ev in Rv. destruct Rv as (_ & Ehd & _). rewrite Ehd.
  eapply wp_seq; [apply (find_wp s F a true _ (key_of k) I kids); auto|].
  - intros c fc m Hi Fc Hm Rm. destruct (chain_in _ _ _ _ c Hc Hi) as (fc' & E1 & E2 & E3).
    assert (fc' = fc) by congruence. subst fc'. pose proof (r_key _ _ _ Rm) as Rk.
    destruct (fkey fc) as [b|] eqn:Ek; [|congruence]. destruct Rk as (p & K1 & K2 & K3 & _).
    apply wp_bind, (wp_rKeyLen _ _ _ _ K2).
    assert (Kof : key_of k c <-> b = k).
    { unfold key_of. split; [intros (g & G3 & G4); congruence|]. intros ->. exists fc. auto. }
    destruct (N.eqb_spec (lenN k) (lenN b)) as [El|Nl]; cbn [negb].
    + apply wp_bind. unfold load_w. apply wp_bind. rewrite K1. apply wp_deref.
      apply (wp_load p _ b); auto. apply wp_bind, (wp_load key _ k); auto. apply wp_ret. split; auto. rewrite Kof.
      unfold zj_strIsEqualLen. unfold lenN in El. rewrite El, N.eqb_refl. simpl. rewrite bytes_eqb_eq. split; congruence.
    + apply wp_ret. split; auto. rewrite Kof. split; [discriminate|]. intros ->. now elim Nl.
  - intros o s' [-> K]. eapply wp_mono; [apply to_handle_wp; auto; apply I|].
    intros r' s'' Hh. exists o. auto.
Qed.
Lemma objGet_no fuel key : ftype (fvalue f) <> TObject -> wp (zj_ObjGet fuel v key) s (fun r s' => r = None /\ s' = s).
Proof. intro E. eapply with_type_node; eauto. intros n E'. congruence. Qed.
Lemma objGetLen_no fuel key len : ftype (fvalue f) <> TObject -> wp (zj_ObjGetLen fuel v key len) s (fun r s' => r = None /\ s' = s).
Proof. intro E. eapply with_type_node; eauto. intros n E'. congruence. Qed.

Lemma arrayGet_wp fuel kids index : fvalue f = VCont false kids -> index < two32 -> (length kids <= fuel)%nat ->
  wp (zj_ArrayGet fuel v index) s (new_handle s A (nth_error kids (N.to_nat index))).
Proof.
  intros Ev Hi Hf. pose proof H as (_ & [Al NA] & _). destruct (kids_chain false kids Ev) as [Hc _].
  unfold zj_ArrayGet. eapply with_type_node; eauto; [rewrite Ev; intro E; now elim E|].
  intros n _ Hn R. pose proof (r_val _ _ _ R) as Rv. rewrite Ev in Rv. destruct Rv as (_ & Ehd & _). rewrite Ehd.
  eapply wp_seq; [apply (nth_wp s F a false index I kids fuel 0); auto; lia|].
  intros o s' [-> ->]. rewrite N.sub_0_r. apply to_handle_wp; auto; apply I.
Qed.
Lemma arrayGet_no fuel index : ftype (fvalue f) <> TArray -> wp (zj_ArrayGet fuel v index) s (fun r s' => r = None /\ s' = s).
Proof. intro E. eapply with_type_node; eauto. intros n E'. congruence. Qed.

Definition kids_of (x : fval) : list addr := match x with VCont _ kids => kids | _ => [] end.
Lemma begin_wp : wp (zj_Begin v) s (new_handle s A (hd_error (kids_of (fvalue f)))).
Proof.
  pose proof H as (_ & [Al NA] & _).
  unfold zj_Begin. apply wp_bind, (wp_getVal _ _ _ _ (proj1 H)). cbn [vN].
  apply wp_bind, wp_is_null with (b := false); auto. cbv iota. apply wp_bind, wp_deref.
  destruct (i_rep _ _ I a f Fa) as (n & Hn & R); [auto|].
  apply wp_bind, (wp_getNode _ n); auto. apply wp_bind, (wp_rType _ _ _ _ (rep_ftype _ _ _ R)).
  pose proof (r_val _ _ _ R) as Rv.
  destruct (fvalue f) as [| | | |[] ks]; cbn [ftype is_container jtype_eqb orb kids_of hd_error];
    try (apply wp_ret; split; auto); destruct Rv as (_ & -> & _); destruct ks as [|c ks]; cbn [hd_error wopt];
    try (apply wp_bind, wp_is_null with (b := true); auto; apply wp_ret; split; auto);
    (apply wp_bind, wp_is_null with (b := false); auto; cbv iota; apply wp_bind, wp_deref; apply to_handle_wp; auto; apply I).
Qed.
Lemma next_wp : wp (zj_Next v) s (new_handle s A (fnext f)).
Proof.
  pose proof H as (_ & [Al NA] & _).
  unfold zj_Next. apply wp_bind, (wp_getVal _ _ _ _ (proj1 H)). cbn [vN].
  apply wp_bind, wp_is_null with (b := false); auto. cbv iota. apply wp_bind, wp_deref.
  destruct (i_rep _ _ I a f Fa) as (n & Hn & R); [auto|].
  apply wp_bind, (wp_getNode _ n); auto. rewrite (r_next _ _ _ R). destruct (fnext f) as [c|]; cbn [wopt].
  - apply wp_bind, wp_is_null with (b := false); auto. cbv iota. apply wp_bind, wp_deref. apply to_handle_wp; auto; apply I.
  - apply wp_bind, wp_is_null with (b := true); auto. apply wp_ret. split; auto.
Qed.
End Children.

(** ** Numbers *)
Section Nums.
Variables (s : st) (F : dom) (v : addr) (A : N) (a : addr) (f : fnode) (b : bytes).
Hypothesis I : inv s F.
Hypothesis H : handle s F v (At a) A.
Hypothesis Fa : F a = Some f.
Hypothesis Ev : fvalue f = VNum b.

Lemma local_copy_wp s1 p : holds s1 p b -> lenN b <= 128 ->
  wp (local_copy (At p) (lenN b)) s1 (fun r s' => r = b ++ repeat 0 (128 - length b) /\ s' = s1).
Proof.
  intros Hp Hl. unfold local_copy, load_w. apply wp_bind, wp_bind, wp_deref. apply (wp_load p _ b); auto.
  destruct (N.ltb_spec 128 (lenN b)); [lia|]. now apply wp_ret.
Qed.
Lemma getInt_wp z : usedA s A + 4 <= two30 -> (forall r, ato int_min int_max (b ++ 0 :: r) = Ok z) -> lenN b < 128 ->
  wp (zj_GetInt v) s (fun r s' => r = Some z /\ ext none none (at_ A 4) s s').
Proof.
  intros Hu Hz Hl. pose proof H as (_ & [Al NA] & _). unfold zj_GetInt. eapply with_text; eauto; [rewrite Ev; discriminate|].
  intros n b' p E El Ep Sf. rewrite Ev in E. injection E as <-. cbn [vA].
  eapply wp_seq; [eapply (alloc_step none none A 0 4 s s); auto; [apply ext_start; apply I|lia]|].
  intros q s1 [X P]. apply wp_bind, (wp_rLen _ _ _ _ El). rewrite Ep. apply wp_bind. unfold zj_strToInt.
  eapply wp_seq; [apply local_copy_wp|]; [|lia|].
  { intros i x Ex. rewrite (ap_bytes _ _ _ _ _ P). apply Sf. auto. }
  intros t s' [-> ->].
  destruct (128 - length b)%nat as [|m] eqn:Em; [unfold lenN in Hl; lia|].
  apply (wp_lift _ z); [apply Hz|]. apply wp_ret. auto.
Qed.
(** The long variants convert the text in place: the bytes after it matter. *)
Lemma getLong_wp z : usedA s A + 8 <= two30 ->
  (forall n p, snodes s a = Some n -> nVal n = At p -> ato long_min long_max (text_at s p) = Ok z) -> lenN b <= 128 ->
  wp (zj_GetLong v) s (fun r s' => r = Some z /\ ext none none (at_ A 8) s s').
Proof.
  intros Hu Hz Hl. pose proof H as (_ & [Al NA] & _). unfold zj_GetLong.
  eapply with_type_node; eauto; [rewrite Ev; intro E; now elim E|].
  intros n _ Hn R. pose proof (r_val _ _ _ R) as Rv. rewrite Ev in Rv. destruct Rv as (_ & El & p & Ep & Sf). cbn [vA].
  eapply wp_seq; [eapply (alloc_step none none A 0 8 s s); auto; [apply ext_start; apply I|lia]|].
  intros q s1 [X P]. apply wp_bind, (wp_rLen _ _ _ _ El). rewrite Ep. apply wp_bind. unfold zj_strToLong.
  eapply wp_seq; [apply local_copy_wp|]; [|lia|].
  { intros i x Ex. rewrite (ap_bytes _ _ _ _ _ P). apply Sf. auto. }
  intros t s' [_ ->]. apply wp_bind, wp_deref. apply wp_bind, wp_readable.
  apply (wp_lift _ z); [|apply wp_ret; auto].
  specialize (Hz n p Hn Ep). destruct (text_at s p) as [|x r] eqn:Et.
  { unfold ato in Hz. simpl in Hz. discriminate. }
  erewrite text_at_ext; eauto. apply (ap_bytes _ _ _ _ _ P).
Qed.
End Nums.
End WithVol.
