(** The deep copy of the samples: GetAndSet, sample/c/sample.c:5-83 and
    sample/c++/sample.cpp:6-96.

    [get_and_set false] is the one in C, which passes on texts by zj_GetKey / zj_GetStr /
    zj_GetNumStr and zj_SetKeyFast / zj_SetStrFast / zj_SetNumStrFast; [get_and_set true] is
    the one in C++, which passes them with their length (zj_GetKeyFast, zj_SetKeyLenFast and so
    on) without copying them.  The one in C++ works on the wrapper objects of zzzjson.hpp; here
    it calls the functions of the same names (SetNumStrLenFast of zzzjson.hpp copies the text,
    zj_SetNumStrLenFast does not; the documents are the same, and the cost below covers both).

    The functions are programs in the sense of Client.v; [k] is what comes after them.  The
    recursion and the loops of the C code have no bound; [n] is fuel, and the program that runs
    out of it has no meaning. *)
From Coq Require Import ZifyN.
From Verif Require Import Base Spec SpecProofs PureParse Dom Vocab CacheProofs ParseTop PrintFacts ParseFacts Api Mem MemProofs AllocProofs Lex LexProofs Scene SetFacts
  Hist HistRun HistForest HistSim HistStep HistAll HistTree HistDocs Work Client.

Section Copy.
Context {X : Type}.
Variable len : bool.

(** The loop over the members: sample.c:17-24, 32-40. *)
Definition each (copy : nat -> nat -> prog X -> prog X) (ob : bool) (A des : nat) (k : prog X) : nat -> answer -> prog X :=
  fix each m a :=
    match a with
    | Value None => k
    | Value (Some next) =>
        match m with
        | O => Stuck
        | Datatypes.S m' =>
            Act (Api (CNewValue A)) (fun a =>
              match a with
              | Value (Some v) =>
                  let go := copy next v (Act (Api (CAdd ob true des v)) (fun a =>
                              match a with
                              | Bool true => Act (Api (CNext next)) (each m')
                              | Bool false => k
                              | _ => Stuck
                              end)) in
                  if ob then Act (KeyOf len v next) (fun a => match a with Done => k | _ => go end) else go
              | _ => Stuck
              end)
        end
    | _ => Stuck
    end.

(** GetAndSet.  [A] is the allocator of [des]. *)
Fixpoint get_and_set (n A src des : nat) (k : prog X) : prog X :=
  match n with
  | O => Stuck
  | Datatypes.S n' =>
      Act (Api (CGetType src)) (fun a =>
        match a with
        | Type_ None => k
        | Type_ (Some TArray) =>
            Act (Api (CSetCont false des)) (fun _ => Act (Api (CBegin src)) (each (get_and_set n' A) false A des k n'))
        | Type_ (Some TObject) =>
            Act (Api (CSetCont true des)) (fun _ => Act (Api (CBegin src)) (each (get_and_set n' A) true A des k n'))
        | Type_ (Some TBool) =>
            Act (Api (CGetBool src)) (fun a =>
              match a with
              | OBool None => k
              | OBool (Some b) => Act (Api (CSetBool des b)) (fun _ => k)
              | _ => Stuck
              end)
        | Type_ (Some TNull) =>
            Act (Api (CIsNull src)) (fun a =>
              match a with
              | Bool false => k
              | Bool true => Act (Api (CSetNull des)) (fun _ => k)
              | _ => Stuck
              end)
        | Type_ (Some TString) => Act (TextOf false len des src) (fun _ => k)
        | Type_ (Some TNumber) => Act (TextOf true len des src) (fun _ => k)
        | _ => Stuck
        end)
  end.
End Copy.

(** ** What can be copied *)
(** No string and no key in [j] has an escape of four hexadecimal digits from E000 on. *)
Fixpoint settable (j : json) : Prop :=
  match j with
  | JStr b => ~ e000_escape b
  | JArr l => (fix all l := match l with [] => True | x :: r => settable x /\ all r end) l
  | JObj l => (fix all l := match l with [] => True | (k, x) :: r => (~ e000_escape k /\ settable x) /\ all r end) l
  | _ => True
  end.
(** What the copy is, if [ok] tells which strings the setters accept.  A string they refuse is
    not copied: an array ends before it, a member of an object becomes null.  An object ends
    before a key they refuse. *)
Section Result.
Variable ok : bytes -> bool.
Fixpoint copied (j : json) : option json :=
  match j with
  | JStr b => if ok b then Some (JStr b) else None
  | JArr l => Some (JArr ((fix go l := match l with [] => [] | x :: r => match copied x with Some y => y :: go r | None => [] end end) l))
  | JObj l => Some (JObj ((fix go l := match l with [] => [] | (k, x) :: r => if ok k then (k, match copied x with Some y => y | None => JNull end) :: go r else [] end) l))
  | _ => Some j
  end.
Fixpoint copied_items (items : list (option bytes * json)) : list (option bytes * json) :=
  match items with
  | [] => []
  | (Some k, x) :: r => if ok k then (Some k, match copied x with Some y => y | None => JNull end) :: copied_items r else []
  | (None, x) :: r => match copied x with Some y => (None, y) :: copied_items r | None => [] end
  end.
End Result.
(** What the copy costs. *)
Definition text_cost (len : bool) (b : bytes) : N := if len then check_cost (lenN b) + (72 + lenN b) else lenN b + 73.
Fixpoint copy_cost (len : bool) (j : json) : N :=
  match j with
  | JNull | JBool _ => 72
  | JNum b | JStr b => text_cost len b
  | JArr l => 88 + (fix sum l := match l with [] => 0 | x :: r => 32 + copy_cost len x + sum r end) l
  | JObj l => 88 + (fix sum l := match l with [] => 0 | (k, x) :: r => 32 + text_cost len k + copy_cost len x + sum r end) l
  end.
(** The members of an array have no keys. *)
Definition items_cost (len : bool) (items : list (option bytes * json)) : N :=
  fold_right (fun kj n => 32 + (match fst kj with Some k => text_cost len k | None => 0 end) + copy_cost len (snd kj) + n) 0 items.
Definition items_ok (items : list (option bytes * json)) : Prop :=
  Forall (fun kj => (match fst kj with Some k => strbody k | None => True end) /\ json_ok (snd kj)) items.
Definition arr_items (l : list json) : list (option bytes * json) := map (fun x => (None, x)) l.
Definition obj_items (l : list (bytes * json)) : list (option bytes * json) := map (fun kx => (Some (fst kx), snd kx)) l.

Lemma arr_cost len l : copy_cost len (JArr l) = 88 + items_cost len (arr_items l).
Proof. cbn [copy_cost]. f_equal. induction l as [|x l IH]; [reflexivity|]. unfold items_cost, arr_items in *. cbn [map fold_right fst snd]. rewrite <- IH. lia. Qed.
Lemma obj_cost len l : copy_cost len (JObj l) = 88 + items_cost len (obj_items l).
Proof. cbn [copy_cost]. f_equal. induction l as [|[k x] l IH]; [reflexivity|]. unfold items_cost, obj_items in *. cbn [map fold_right fst snd]. rewrite <- IH. lia. Qed.
Lemma arr_ok l : json_ok (JArr l) -> items_ok (arr_items l).
Proof.
  intros J. inversion J as [| | | |l' Hl|]; subst. clear J. induction l as [|x l IH]; [constructor|]. cbn [arr_items map].
  inversion Hl; subst. constructor; [cbn [fst snd]; auto|apply IH; auto].
Qed.
Lemma obj_ok l : json_ok (JObj l) -> items_ok (obj_items l).
Proof.
  intros J. inversion J as [| | | | |l' Hl]; subst. clear J. induction l as [|[k x] l IH]; [constructor|]. cbn [obj_items map].
  inversion Hl; subst. constructor; [cbn [fst snd] in *; tauto|apply IH; auto].
Qed.

(** ** Trees *)
Definition all2 {U V} (f : U -> V -> Prop) : list U -> list V -> Prop :=
  fix go l ks := match l, ks with [], [] => True | x :: l', c :: ks' => f x c /\ go l' ks' | _, _ => False end.
(** The node [c] is a member of [i], with the key [key] (if it should have one) and in [P]. *)
Definition kid (P : N -> Prop) (G : forest) (i : N) (key : option bytes) (T : N -> Prop) (c : N) : Prop :=
  P c /\ T c /\ exists tc, G c = Some tc /\ tpar tc = Some i /\ (key <> None -> tkey tc = key).
(** Below [i] there is [j]; the nodes strictly below are in [P]. *)
Fixpoint tree (P : N -> Prop) (G : forest) (j : json) (i : N) : Prop :=
  exists t, G i = Some t /\
  match j with
  | JNull => tvalue t = NNull
  | JBool b => tvalue t = NBool b
  | JNum b => tvalue t = NNum b
  | JStr b => tvalue t = NStr b
  | JArr l => exists ks, tvalue t = NCont false ks /\ NoDup ks /\ all2 (fun x => kid P G i None (tree P G x)) l ks
  | JObj l => exists ks, tvalue t = NCont true ks /\ NoDup ks /\ all2 (fun kx => kid P G i (Some (fst kx)) (tree P G (snd kx))) l ks
  end.
Definition kids (P : N -> Prop) (G : forest) (i : N) : list N -> list (option bytes * json) -> Prop :=
  Forall2 (fun c kj => kid P G i (fst kj) (tree P G (snd kj)) c).
Lemma tree_arr P G l i : tree P G (JArr l) i <-> exists t ks, G i = Some t /\ tvalue t = NCont false ks /\ NoDup ks /\ kids P G i ks (arr_items l).
Proof.
  cbn [tree]. split.
  - intros (t & Gi & ks & V & ND & H). exists t, ks. repeat (split; auto). clear -H. revert ks H.
    induction l as [|x l IH]; intros [|c ks] H; cbn in H; try tauto; constructor; [apply H|apply IH, H].
  - intros (t & ks & Gi & V & ND & H). exists t. split; auto. exists ks. repeat (split; auto). clear -H. revert ks H.
    induction l as [|x l IH]; intros ks H; inversion H; subst; cbn; [auto|split; auto].
Qed.
Lemma tree_obj P G l i : tree P G (JObj l) i <-> exists t ks, G i = Some t /\ tvalue t = NCont true ks /\ NoDup ks /\ kids P G i ks (obj_items l).
Proof.
  cbn [tree]. split.
  - intros (t & Gi & ks & V & ND & H). exists t, ks. repeat (split; auto). clear -H. revert ks H.
    induction l as [|x l IH]; intros [|c ks] H; cbn in H; try tauto; constructor; [apply H|apply IH, H].
  - intros (t & ks & Gi & V & ND & H). exists t. split; auto. exists ks. repeat (split; auto). clear -H. revert ks H.
    induction l as [|x l IH]; intros ks H; inversion H; subst; cbn; [auto|split; auto].
Qed.

Lemma kids_mono (P P' : N -> Prop) (G G' : forest) i ks items :
  (forall x, In x (map snd items) -> forall c, tree P G x c -> P c -> tree P' G' x c) -> (forall c, P c -> P' c /\ G' c = G c) ->
  kids P G i ks items -> kids P' G' i ks items.
Proof.
  intros IH K H. induction H as [|c [k x] ks items (H1 & H2 & tc & H3 & H4) _ IHl]; constructor; cbn [fst snd] in *.
  - destruct (K c H1) as [K1 K2]. split; auto. split; [apply IH; auto; now left|]. exists tc. rewrite K2. auto.
  - apply IHl. intros y Hy. apply IH. now right.
Qed.
Lemma tree_mono (P P' : N -> Prop) (G G' : forest) : (forall c, P c -> P' c /\ G' c = G c) -> forall j i, G' i = G i -> tree P G j i -> tree P' G' j i.
Proof.
  intro K. induction j as [|b|t|b|l IH|l IH] using json_ind2; intros i E H.
  1-4: cbn in *; rewrite E; exact H.
  - apply tree_arr in H as (t & ks & Gi & V & ND & H). apply tree_arr. exists t, ks. rewrite E. repeat (split; auto).
    eapply kids_mono; [|exact K|exact H]. intros x Hx c Hc Pc. unfold arr_items in Hx. rewrite map_map in Hx. apply in_map_iff in Hx as (y & <- & Hy).
    cbn [snd] in *. rewrite Forall_forall in IH. apply (IH y Hy); auto. now apply K.
  - apply tree_obj in H as (t & ks & Gi & V & ND & H). apply tree_obj. exists t, ks. rewrite E. repeat (split; auto).
    eapply kids_mono; [|exact K|exact H]. intros x Hx c Hc Pc. unfold obj_items in Hx. rewrite map_map in Hx. apply in_map_iff in Hx as (y & <- & Hy).
    cbn [snd] in *. rewrite Forall_forall in IH. apply (IH y Hy); auto. now apply K.
Qed.
(** The root may change all but its value. *)
Lemma tree_root (P : N -> Prop) (G G' : forest) i t t' j : (forall c, P c -> G' c = G c) -> G i = Some t -> G' i = Some t' -> tvalue t' = tvalue t -> tree P G j i -> tree P G' j i.
Proof.
  intros K E E' V H.
  assert (T : forall c x, P c -> tree P G x c -> tree P G' x c).
  { intros c x Pc Hc. eapply tree_mono; [|apply K; auto|exact Hc]. auto. }
  destruct j as [|b|b|b|l|l].
  1-4: cbn in *; destruct H as (t0 & H1 & H2); assert (t0 = t) by congruence; subst t0; exists t'; split; congruence.
  - apply tree_arr in H as (t0 & ks & Gi & V0 & ND & H). assert (t0 = t) by congruence. subst t0. apply tree_arr. exists t', ks. split; auto. split; [congruence|]. split; auto.
    eapply kids_mono; [|intros c Pc; split; [exact Pc|now apply K]|exact H]. intros x _ c Hc Pc. now apply T.
  - apply tree_obj in H as (t0 & ks & Gi & V0 & ND & H). assert (t0 = t) by congruence. subst t0. apply tree_obj. exists t', ks. split; auto. split; [congruence|]. split; auto.
    eapply kids_mono; [|intros c Pc; split; [exact Pc|now apply K]|exact H]. intros x _ c Hc Pc. now apply T.
Qed.

(** Reading a tree. *)
Lemma arr_json l : container false (arr_items l) = JArr l.
Proof. unfold container, arr_items. rewrite map_map. cbn [snd]. now rewrite map_id. Qed.
Lemma obj_json l : container true (obj_items l) = JObj l.
Proof. unfold container, obj_items. rewrite map_map. cbn [fst snd okey]. f_equal. induction l as [|[k x] l IH]; cbn; [auto|]. now rewrite IH. Qed.
Lemma arr_copied ok l : copied ok (JArr l) = Some (container false (copied_items ok (arr_items l))).
Proof.
  cbn [copied]. unfold container. do 2 f_equal. induction l as [|x l IH]; [reflexivity|]. cbn [arr_items map copied_items]. destruct (copied ok x); [|reflexivity].
  cbn [map snd]. f_equal. exact IH.
Qed.
Lemma obj_copied ok l : copied ok (JObj l) = Some (container true (copied_items ok (obj_items l))).
Proof.
  cbn [copied]. unfold container. do 2 f_equal. induction l as [|[k x] l IH]; [reflexivity|]. cbn [obj_items map copied_items fst snd]. destruct (ok k); [|reflexivity].
  cbn [map fst snd okey]. f_equal. exact IH.
Qed.
Definition items_values (items : list (option bytes * json)) : nat := list_sum (map (fun kj => values (snd kj)) items).
Lemma arr_values l : values (JArr l) = Datatypes.S (items_values (arr_items l)).
Proof. unfold items_values, arr_items. cbn [values]. now rewrite map_map. Qed.
Lemma obj_values l : values (JObj l) = Datatypes.S (items_values (obj_items l)).
Proof. unfold items_values, obj_items. cbn [values]. rewrite map_map. f_equal. f_equal. apply map_ext. now intros [k x]. Qed.
(** Keys as they should be: all or none. *)
Definition keyed (ob : bool) (items : list (option bytes * json)) : Prop := Forall (fun kj => if ob then fst kj <> None else fst kj = None) items.
Lemma arr_keyed l : keyed false (arr_items l).
Proof. apply Forall_forall. intros kj H. apply in_map_iff in H as (x & <- & _). reflexivity. Qed.
Lemma obj_keyed l : keyed true (obj_items l).
Proof. apply Forall_forall. intros kj H. apply in_map_iff in H as (x & <- & _). discriminate. Qed.

Lemma kids_read P G i ob ks items n : keyed ob items -> (items_values items <= n)%nat ->
  (forall x, In x (map snd items) -> forall c, tree P G x c -> (values x <= n)%nat -> read n G c = Some x) -> kids P G i ks items ->
  option_map (container ob) (mapo (fun c => match G c, read n G c with Some tc, Some j => Some (tkey tc, j) | _, _ => None end) ks) = Some (container ob items).
Proof.
  intros Ky Hn IH H.
  assert (exists its, mapo (fun c => match G c, read n G c with Some tc, Some j => Some (tkey tc, j) | _, _ => None end) ks = Some its /\
            container ob its = container ob items) as (its & -> & E); [|cbn; now rewrite E].
  unfold container in *. revert Ky Hn IH. induction H as [|c [k x] ks items (H1 & H2 & tc & H3 & H4 & H5) _ IHl]; intros Ky Hn IH; [exists []; now destruct ob|].
  cbn [fst snd] in *. unfold items_values in Hn. cbn [map list_sum fold_right snd] in Hn. inversion Ky as [|? ? K1 K2]; subst. cbn [fst] in K1.
  destruct IHl as (its & E & Ei); auto; [unfold items_values, list_sum in *; lia|intros y Hy; apply IH; now right|].
  cbn [mapo]. rewrite H3, (IH x (or_introl eq_refl) c H2) by lia. rewrite E. eexists. split; [reflexivity|]. destruct ob; cbn [map fst snd].
  - rewrite (H5 K1). injection Ei as Ei. now rewrite Ei.
  - injection Ei as Ei. now rewrite Ei.
Qed.
Lemma tree_read P G : forall j i n, tree P G j i -> (values j <= n)%nat -> read n G i = Some j.
Proof.
  induction j as [|b|t|b|l IH|l IH] using json_ind2; intros i n H Hn; (destruct n as [|n]; [exfalso; cbn in Hn; lia|]).
  1-4: destruct H as (t0 & E & V); cbn [read]; now rewrite E, V.
  - apply tree_arr in H as (t & ks & Gi & V & ND & H). rewrite arr_values in Hn. cbn [read]. rewrite Gi, V, <- arr_json.
    eapply kids_read; eauto using arr_keyed; [lia|]. intros x Hx c Hc Hv. unfold arr_items in Hx. rewrite map_map in Hx. apply in_map_iff in Hx as (y & <- & Hy).
    cbn [snd] in *. rewrite Forall_forall in IH. now apply (IH y Hy).
  - apply tree_obj in H as (t & ks & Gi & V & ND & H). rewrite obj_values in Hn. cbn [read]. rewrite Gi, V, <- obj_json.
    eapply kids_read; eauto using obj_keyed; [lia|]. intros x Hx c Hc Hv. unfold obj_items in Hx. rewrite map_map in Hx. apply in_map_iff in Hx as (y & <- & Hy).
    cbn [snd] in *. rewrite Forall_forall in IH. now apply (IH y Hy).
Qed.

(** ** The state of the reference *)
Definition room (R : rst) (n : N) : Prop := forall u, In u (ru R) -> u + n <= two30.
Lemma room_less R n m : room R n -> m <= n -> room R m.
Proof. intros H L u Hu. specialize (H u Hu). lia. Qed.
Lemma spend_room R A n m : room R (n + m) -> (A < length (ru R))%nat ->
  exists ru', spend R A n = Some (mkR (rG R) (rn R) (rh R) ru') /\ length ru' = length (ru R) /\ forall u, In u ru' -> u + m <= two30.
Proof.
  intros H L. unfold spend. destruct (nth_error (ru R) A) as [u|] eqn:E; [|apply nth_error_None in E; lia].
  pose proof (H u (nth_error_In _ _ E)) as K. assert (u + n <=? two30 = true) as -> by (apply N.leb_le; lia).
  eexists. split; [reflexivity|]. split; [apply length_setn|]. intros x Hx. apply In_nth_error in Hx as (k & Hk). rewrite nth_setn in Hk.
  destruct (Nat.eqb k A) eqn:Ek; [apply Nat.eqb_eq in Ek; subst k|].
  - rewrite E in Hk. cbn in Hk. injection Hk as <-. lia.
  - specialize (H x (nth_error_In _ _ Hk)). lia.
Qed.
Lemma scratch_room R n m : room R (n + m) ->
  exists ru', scratch R n = Some (mkR (rG R) (rn R) (rh R) ru') /\ length ru' = length (ru R) /\ forall u, In u ru' -> u + m <= two30.
Proof.
  intros H. unfold scratch. assert (forallb (fun u => u + n <=? two30) (ru R) = true) as ->.
  { apply forallb_forall. intros u Hu. apply N.leb_le. specialize (H u Hu). lia. }
  eexists. split; [reflexivity|]. split; [apply map_length|]. intros x Hx. apply in_map_iff in Hx as (u & <- & Hu). specialize (H u Hu). lia.
Qed.
Lemma room_len R A n : room R n -> (A < length (ru R))%nat -> n <= two30.
Proof. intros H L. destruct (nth_error (ru R) A) as [u|] eqn:E; [|apply nth_error_None in E; lia]. specialize (H u (nth_error_In _ _ E)). lia. Qed.

Lemma look_some R h i t A : nth_error (rh R) h = Some (Some i, A) -> rG R i = Some t -> look R h = Some (Some (i, t), A).
Proof. intros H G. unfold look. now rewrite H, G. Qed.
Lemma look_none R h A : nth_error (rh R) h = Some (None, A) -> look R h = Some (None, A).
Proof. intros H. unfold look. now rewrite H. Qed.
Lemma nth_lt {U} (l : list U) k x : nth_error l k = Some x -> (k < length l)%nat.
Proof. intro H. apply nth_error_Some. congruence. Qed.

(** A value object for the copy: without a node, or with a new one that has a key. *)
Definition dest (R : rst) (des A : nat) (wd : option N) (key : option bytes) : Prop :=
  nth_error (rh R) des = Some (wd, A) /\
  match wd with
  | Some d => d < rn R /\ exists td, rG R d = Some td /\ tpar td = None /\ tkey td = key
  | None => key = None
  end.
Definition dnum (R : rst) (wd : option N) : N := match wd with Some d => d | None => rn R end.
Definition old (wd : option N) : N := match wd with Some _ => 1 | None => 0 end.
(** [R'] is [R] but for that value object and what is new. *)
Record became (R : rst) (des A : nat) (wd : option N) (key : option bytes) (R' : rst) : Prop := {
  bc_h : nth_error (rh R') des = Some (Some (dnum R wd), A);
  bc_frame : forall x, x < rn R -> wd <> Some x -> rG R' x = rG R x;
  bc_rn : rn R <= rn R';
  bc_lt : dnum R wd < rn R';
  bc_node : exists td, rG R' (dnum R wd) = Some td /\ tpar td = None /\ tkey td = key /\ tend td = true;
  bc_len : (length (rh R) <= length (rh R'))%nat;
  bc_rh : forall h, (h < length (rh R))%nat -> h <> des -> nth_error (rh R') h = nth_error (rh R) h;
  bc_ru : length (ru R') = length (ru R)
}.
Lemma became_from R R1 des A wd key R' : rG R1 = rG R -> rn R1 = rn R -> rh R1 = rh R -> length (ru R1) = length (ru R) ->
  became R1 des A wd key R' -> became R des A wd key R'.
Proof.
  intros E1 E2 E3 E4 [B1 B2 B3 B4 B5 B6 B7 B8]. assert (Ed : dnum R1 wd = dnum R wd) by (unfold dnum; destruct wd; auto).
  rewrite Ed, E1, E2, E3, E4 in *. constructor; auto.
Qed.

(** Setting a value that has no members. *)
Definition wnode (R : rst) (wd : option N) : option (N * tnode) :=
  match wd with Some d => option_map (fun t => (d, t)) (rG R d) | None => None end.
Lemma dest_look R des A wd key : dest R des A wd key -> look R des = Some (wnode R wd, A).
Proof.
  intros [H K]. unfold look, wnode. rewrite H. destruct wd as [d|]; auto. destruct K as (_ & td & -> & _). reflexivity.
Qed.
Lemma set_leaf R des A wd key j v (seal : bool) : dest R des A wd key -> (forall i n, plant i j n = (v, noforest, n)) ->
  let R1 := assign R des (wnode R wd) j in let R' := if seal then sealed R (wnode R wd) R1 else R1 in
  became R des A wd key R' /\ (exists td, rG R' (dnum R wd) = Some td /\ tvalue td = v) /\ rn R + 1 = rn R' + old wd /\ ru R' = ru R.
Proof.
  intros [H K] Pl R1 R'. unfold wnode in *. destruct wd as [d|]; cbn [dnum old].
  - destruct K as (Ld & td & Gd & Pd & Kd).
    assert (Fr : forall x, x <> d -> x < rn R -> rG R' x = rG R x).
    { intros x Nx Lx. unfold R', R1. rewrite Gd. cbn [option_map]. unfold assign. rewrite Pl. unfold put, over, noforest.
      assert (E1 : (x =? d) = false) by now apply N.eqb_neq. destruct seal; cbn [sealed with_forest rG rn]; rewrite ?E1; auto.
      assert (rn R <=? x = false) as -> by (apply N.leb_gt; lia). reflexivity. }
    assert (Nd : exists t', rG R' d = Some t' /\ tpar t' = None /\ tkey t' = key /\ tend t' = true /\ tvalue t' = v).
    { unfold R', R1. rewrite Gd. cbn [option_map]. unfold assign. rewrite Pl. unfold put, over, noforest.
      destruct seal; cbn [sealed with_forest rG rn]; rewrite ?N.eqb_refl, ?orb_true_r; eexists; (split; [reflexivity|]); cbn; auto. }
    assert (En : rn R' = rn R /\ rh R' = rh R /\ ru R' = ru R).
    { unfold R', R1. rewrite Gd. cbn [option_map]. unfold assign. rewrite Pl. destruct seal; cbn; auto. }
    destruct En as (E1 & E2 & E3). destruct Nd as (t' & N1 & N2 & N3 & N4 & N5). split; [|split; [|split]].
    + constructor; cbn [dnum]; rewrite ?E1, ?E2, ?E3; auto; try lia. * intros x Lx Nx. apply Fr; congruence. * exists t'. auto.
    + exists t'. auto.
    + lia.
    + auto.
  - assert (Fr : forall x, x < rn R -> rG R' x = rG R x).
    { intros x Lx. unfold R', R1. unfold assign. rewrite Pl. unfold put, over, noforest, with_handle.
      assert (E1 : (x =? rn R) = false) by (apply N.eqb_neq; lia). destruct seal; cbn [sealed with_forest rG rn]; rewrite ?E1; auto.
      assert (rn R <=? x = false) as -> by (apply N.leb_gt; lia). reflexivity. }
    assert (Nd : exists t', rG R' (rn R) = Some t' /\ tpar t' = None /\ tkey t' = key /\ tend t' = true /\ tvalue t' = v).
    { unfold R', R1. unfold assign. rewrite Pl. unfold put, over, noforest, with_handle.
      destruct seal; cbn [sealed with_forest rG rn]; rewrite ?N.eqb_refl, ?N.leb_refl; eexists; (split; [reflexivity|]); cbn; auto. }
    assert (En : rn R' = rn R + 1 /\ rh R' = setn des (Some (rn R), A) (rh R) /\ ru R' = ru R).
    { unfold R', R1. unfold assign. rewrite Pl. unfold with_handle. cbn [rh]. rewrite H. destruct seal; cbn; auto. }
    destruct En as (E1 & E2 & E3). destruct Nd as (t' & N1 & N2 & N3 & N4 & N5). split; [|split; [|split]].
    + constructor; cbn [dnum]; rewrite ?E1, ?E2, ?E3; auto; try lia.
      * rewrite nth_setn, Nat.eqb_refl, H. reflexivity.
      * exists t'. auto.
      * rewrite length_setn. lia.
      * intros h Lh Nh. rewrite nth_setn. destruct (Nat.eqb_spec h des); congruence.
    + exists t'. auto.
    + lia.
    + auto.
Qed.

(** ** Running the copy on the reference *)
Section Run.
Variable jd : judge.
Hypothesis J : correct jd.
Context {X : Type}.
Variable len : bool.

Definition runs (p : prog X) (R : rst) (q : prog X) (R' : rst) : Prop := rplay jd p R = rplay jd q R' /\ pmost jd p R = pmost jd q R'.
Lemma runs_refl p R : runs p R p R. Proof. split; reflexivity. Qed.
Lemma runs_trans p R q R1 r R2 : runs p R q R1 -> runs q R1 r R2 -> runs p R r R2.
Proof. intros [A B] [C D]. split; congruence. Qed.
Lemma runs_act c k R a R1 : sstep jd c R = Some (a, R1) -> spasses c R = 0%nat -> runs (Act c k) R (k a) R1.
Proof. intros E P. split; cbn [rplay pmost]; rewrite E; auto. now rewrite P. Qed.
Lemma runs_step c k R a R1 q R' : sstep jd c R = Some (a, R1) -> spasses c R = 0%nat -> runs (k a) R1 q R' -> runs (Act c k) R q R'.
Proof. intros E P K. eapply runs_trans; [eapply runs_act; eauto|exact K]. Qed.

Lemma no0_ok t : ~ In 0 t -> ok_c t = true.
Proof. intro H. unfold ok_c. destruct (has0 t) eqn:E; auto. elim H. now apply has0_in. Qed.
Lemma fits_ok t n : lenN t <= n -> n <= two30 -> fits t = true.
Proof. intros H K. apply N.ltb_lt. unfold two30, two32 in *. lia. Qed.

(** Passing on a text. *)
Lemma step_text num des A wd key src As i ti b R rest : dest R des A wd key -> nth_error (rh R) src = Some (Some i, As) -> rG R i = Some ti ->
  ntext num (tvalue ti) = Some b -> (if num then number b else strbody_set b) -> (A < length (ru R))%nat -> (As < length (ru R))%nat ->
  room R (text_cost len b + rest) ->
  exists R', sstep jd (TextOf num len des src) R = Some (Bool true, R') /\ became R des A wd key R' /\
    (exists td, rG R' (dnum R wd) = Some td /\ tvalue td = if num then NNum b else NStr b) /\ rn R + 1 = rn R' + old wd /\ room R' rest.
Proof.
  intros D Hs Gi Ht Hb LA LAs Rm. cbn [sstep]. rewrite (look_some _ _ _ _ _ Hs Gi), Ht.
  assert (Hok : (if num then o_num jd b else o_str jd b) = true) by (destruct num; [now apply (jd_num jd J)|now apply (jd_str jd J)]).
  assert (N0 : ~ In 0 b) by (destruct num; [now apply number_no0|apply strbody_no0; now apply strbody_set_strbody]).
  pose proof (room_len _ _ _ Rm LA) as Le. unfold text_cost in *.
  assert (Pl : forall i n, plant i (if num then JNum b else JStr b) n = (if num then NNum b else NStr b, noforest, n)) by (intros; destruct num; reflexivity).
  destruct len.
  - cbn [rstep]. rewrite (dest_look _ _ _ _ _ D), (fits_ok b (lenN b + 73)) by (unfold check_cost in Le; lia).
    replace (check_cost (lenN b) + lenN b + 72) with (check_cost (lenN b) + (72 + lenN b)) by lia.
    destruct (scratch_room _ _ _ Rm) as (ru' & -> & Lu & Ru). unfold set_if. rewrite Hok. eexists. split; [reflexivity|].
    set (R1 := mkR (rG R) (rn R) (rh R) ru'). destruct (set_leaf R1 des A wd key _ _ false D Pl) as (B & Nd & En & Eu).
    split; [|split; [exact Nd|split; [exact En|]]].
    + eapply became_from; [..|exact B]; auto.
    + intros u Hu. apply Ru. change (wnode R1 wd) with (wnode R wd) in Eu. now rewrite Eu in Hu.
  - destruct (spend_room R As (lenN b + 1) (72 + rest)) as (ru1 & -> & Lu1 & Ru1); [eapply room_less; [exact Rm|lia]|auto|].
    set (R1 := mkR (rG R) (rn R) (rh R) ru1). assert (D1 : dest R1 des A wd key) by exact D.
    cbn [rstep]. rewrite (dest_look _ _ _ _ _ D1), (no0_ok b N0), (fits_ok (b ++ [0]) (lenN b + 73)) by (rewrite ?lenN_app1; lia). cbn [andb].
    destruct (spend_room R1 A 72 rest) as (ru2 & -> & Lu2 & Ru2); [exact Ru1|cbn; now rewrite Lu1|]. unfold seal_if. rewrite Hok. eexists. split; [reflexivity|].
    set (R2 := mkR (rG R1) (rn R1) (rh R1) ru2). destruct (set_leaf R2 des A wd key _ _ true D Pl) as (B & Nd & En & Eu).
    split; [|split; [exact Nd|split; [exact En|]]].
    + eapply became_from; [..|exact B]; auto. cbn in *. congruence.
    + intros u Hu. apply Ru2. change (wnode R2 wd) with (wnode R1 wd) in Eu. now rewrite Eu in Hu.
Qed.
(** Passing on a key, to a value object without a node. *)
(** A string that is refused. *)
Definition same_docs (R R' : rst) : Prop := rG R' = rG R /\ rn R' = rn R /\ rh R' = rh R /\ length (ru R') = length (ru R).
Lemma step_refused des A wd key src As i ti b R rest : dest R des A wd key -> nth_error (rh R) src = Some (Some i, As) -> rG R i = Some ti ->
  tvalue ti = NStr b -> strbody b -> o_str jd b = false -> (A < length (ru R))%nat -> (As < length (ru R))%nat -> room R (text_cost len b + rest) ->
  exists R', sstep jd (TextOf false len des src) R = Some (Bool false, R') /\ same_docs R R' /\ room R' rest.
Proof.
  intros D Hs Gi Ht Hb Hok LA LAs Rm. cbn [sstep]. rewrite (look_some _ _ _ _ _ Hs Gi), Ht. cbn [ntext].
  pose proof (strbody_no0 _ Hb) as N0. pose proof (room_len _ _ _ Rm LA) as Le. unfold text_cost in *. destruct len.
  - cbn [rstep]. rewrite (dest_look _ _ _ _ _ D), (fits_ok b (lenN b + 73)) by (unfold check_cost in Le; lia).
    replace (check_cost (lenN b) + lenN b + 72) with (check_cost (lenN b) + (72 + lenN b)) by lia.
    destruct (scratch_room _ _ _ Rm) as (ru' & -> & Lu & Ru). unfold set_if. rewrite Hok. eexists. split; [reflexivity|]. split; [repeat split; auto|exact Ru].
  - destruct (spend_room R As (lenN b + 1) (72 + rest)) as (ru1 & -> & Lu1 & Ru1); [eapply room_less; [exact Rm|lia]|auto|].
    set (R1 := mkR (rG R) (rn R) (rh R) ru1). assert (D1 : dest R1 des A wd key) by exact D.
    cbn [rstep]. rewrite (dest_look _ _ _ _ _ D1), (no0_ok b N0), (fits_ok (b ++ [0]) (lenN b + 73)) by (rewrite ?lenN_app1; lia). cbn [andb].
    destruct (spend_room R1 A 72 rest) as (ru2 & -> & Lu2 & Ru2); [exact Ru1|cbn; now rewrite Lu1|]. unfold seal_if. rewrite Hok. eexists. split; [reflexivity|].
    split; [repeat split; auto; cbn in *; congruence|exact Ru2].
Qed.
Lemma step_key_refused v A src As i ti b R rest : nth_error (rh R) v = Some (None, A) -> nth_error (rh R) src = Some (Some i, As) -> rG R i = Some ti ->
  tkey ti = Some b -> strbody b -> o_str jd b = false -> (A < length (ru R))%nat -> (As < length (ru R))%nat -> room R (text_cost len b + rest) ->
  exists R', sstep jd (KeyOf len v src) R = Some (Bool false, R') /\ same_docs R R' /\ room R' rest.
Proof.
  intros Hv Hs Gi Ht Hb Hok LA LAs Rm. cbn [sstep]. rewrite (look_some _ _ _ _ _ Hs Gi), Ht.
  pose proof (strbody_no0 _ Hb) as N0. pose proof (room_len _ _ _ Rm LA) as Le. unfold text_cost in *. destruct len.
  - cbn [rstep]. rewrite (look_none _ _ _ Hv), (fits_ok b (lenN b + 73)) by (unfold check_cost in Le; lia).
    destruct (scratch_room _ _ _ Rm) as (ru' & -> & Lu & Ru). unfold key_if. cbn [key_allowed]. rewrite Hok. eexists. split; [reflexivity|]. split; [repeat split; auto|exact Ru].
  - destruct (spend_room R As (lenN b + 1) (72 + rest)) as (ru1 & -> & Lu1 & Ru1); [eapply room_less; [exact Rm|lia]|auto|].
    set (R1 := mkR (rG R) (rn R) (rh R) ru1). assert (Hv1 : nth_error (rh R1) v = Some (None, A)) by exact Hv.
    cbn [rstep]. rewrite (look_none _ _ _ Hv1), (no0_ok b N0), (fits_ok (b ++ [0]) (lenN b + 73)) by (rewrite ?lenN_app1; lia). cbn [andb].
    destruct (spend_room R1 A 72 rest) as (ru2 & -> & Lu2 & Ru2); [exact Ru1|cbn; now rewrite Lu1|]. unfold key_if. cbn [key_allowed]. rewrite Hok. eexists. split; [reflexivity|].
    split; [repeat split; auto; cbn in *; congruence|exact Ru2].
Qed.
(** A node that has only a key is a null. *)
Definition blank (R : rst) (wd : option N) : Prop := match wd with Some d => exists td, rG R d = Some td /\ tvalue td = NNull /\ tend td = true | None => True end.
Lemma step_key v A src As i ti b R rest : nth_error (rh R) v = Some (None, A) -> nth_error (rh R) src = Some (Some i, As) -> rG R i = Some ti ->
  tkey ti = Some b -> strbody_set b -> (A < length (ru R))%nat -> (As < length (ru R))%nat -> room R (text_cost len b + rest) ->
  exists R', sstep jd (KeyOf len v src) R = Some (Bool true, R') /\ dest R' v A (Some (rn R)) (Some b) /\ blank R' (Some (rn R)) /\
    (forall x, x < rn R -> rG R' x = rG R x) /\ rn R' = rn R + 1 /\ length (rh R') = length (rh R) /\
    (forall h, h <> v -> nth_error (rh R') h = nth_error (rh R) h) /\ length (ru R') = length (ru R) /\ room R' rest.
Proof.
  intros Hv Hs Gi Ht Hb LA LAs Rm. cbn [sstep]. rewrite (look_some _ _ _ _ _ Hs Gi), Ht.
  assert (Hok : o_str jd b = true) by now apply (jd_str jd J).
  assert (N0 : ~ In 0 b) by (apply strbody_no0; now apply strbody_set_strbody).
  pose proof (room_len _ _ _ Rm LA) as Le. unfold text_cost in *.
  assert (End : forall ru', length ru' = length (ru R) -> (forall u, In u ru' -> u + rest <= two30) ->
    let R1 := mkR (rG R) (rn R) (rh R) ru' in
    exists R', key_if R1 v None (o_str jd b) b = Some (Bool true, R') /\ dest R' v A (Some (rn R)) (Some b) /\ blank R' (Some (rn R)) /\
      (forall x, x < rn R -> rG R' x = rG R x) /\ rn R' = rn R + 1 /\ length (rh R') = length (rh R) /\
      (forall h, h <> v -> nth_error (rh R') h = nth_error (rh R) h) /\ length (ru R') = length (ru R) /\ room R' rest).
  { intros ru' Lu Ru R1. unfold key_if. cbn [key_allowed]. rewrite Hok. cbn [andb assign_key]. eexists. split; [reflexivity|].
    unfold R1, with_handle. cbn [rG rn rh ru]. rewrite Hv. split; [split; cbn [rG rn rh ru]|].
    - now rewrite nth_setn, Nat.eqb_refl, Hv.
    - split; [lia|]. unfold put. rewrite N.eqb_refl. eexists. split; [reflexivity|]. cbn. auto.
    - split; [cbn [blank rG]; unfold put; rewrite N.eqb_refl; eexists; split; [reflexivity|]; cbn; auto|]. split; [|split; [reflexivity|split; [apply length_setn|split; [|split; [exact Lu|exact Ru]]]]].
      + intros x Lx. unfold put. destruct (N.eqb_spec x (rn R)); [lia|auto].
      + intros h Nh. rewrite nth_setn. destruct (Nat.eqb_spec h v); congruence. }
  destruct len.
  - cbn [rstep]. rewrite (look_none _ _ _ Hv), (fits_ok b (lenN b + 73)) by (unfold check_cost in Le; lia).
    destruct (scratch_room _ _ _ Rm) as (ru' & -> & Lu & Ru). apply End; auto.
  - destruct (spend_room R As (lenN b + 1) (72 + rest)) as (ru1 & -> & Lu1 & Ru1); [eapply room_less; [exact Rm|lia]|auto|].
    set (R1 := mkR (rG R) (rn R) (rh R) ru1). assert (Hv1 : nth_error (rh R1) v = Some (None, A)) by exact Hv.
    cbn [rstep]. rewrite (look_none _ _ _ Hv1), (no0_ok b N0), (fits_ok (b ++ [0]) (lenN b + 73)) by (rewrite ?lenN_app1; lia). cbn [andb].
    destruct (spend_room R1 A 72 rest) as (ru2 & -> & Lu2 & Ru2); [exact Ru1|cbn; now rewrite Lu1|]. apply End; auto. cbn in *. congruence.
Qed.

(** Adding a root. *)
Lemma tree_cont P G i ob ks items t : keyed ob items -> G i = Some t -> tvalue t = NCont ob ks -> NoDup ks -> kids P G i ks items ->
  tree P G (container ob items) i.
Proof.
  intros Ky Gi V ND H. destruct ob; cbn [container].
  - apply tree_obj. exists t, ks. repeat (split; auto). replace (obj_items _) with items; auto.
    unfold obj_items. rewrite map_map. cbn [fst snd]. clear -Ky. induction Ky as [|[k x] items Hk _ IH]; cbn [map fst snd] in *; [reflexivity|].
    rewrite <- IH. destruct k; [reflexivity|now elim Hk].
  - apply tree_arr. exists t, ks. repeat (split; auto). replace (arr_items _) with items; auto.
    unfold arr_items. rewrite map_map. clear -Ky. induction Ky as [|[k x] items Hk _ IH]; cbn [map fst snd] in *; [reflexivity|].
    rewrite <- IH. now subst k.
Qed.
Lemma container_values ob items : values (container ob items) = Datatypes.S (items_values items).
Proof. unfold items_values, container. destruct ob; cbn [values]; rewrite map_map; f_equal; f_equal; now apply map_ext. Qed.
Lemma kids_app P G i ks items c kj : kids P G i ks items -> kid P G i (fst kj) (tree P G (snd kj)) c -> kids P G i (ks ++ [c]) (items ++ [kj]).
Proof. intros H K. apply Forall2_app; auto. Qed.
Lemma items_values_app a b : items_values (a ++ b) = (items_values a + items_values b)%nat.
Proof. unfold items_values. rewrite map_app. apply list_sum_app. Qed.

Lemma isinN_false x l : ~ In x l -> isinN x l = false.
Proof. intro H. destruct (isinN x l) eqn:E; auto. unfold isinN in E. apply existsb_exists in E as (y & Hy & E). apply N.eqb_eq in E. subst. now elim H. Qed.
Lemma nodup_last (l : list N) c : NoDup l -> ~ In c l -> NoDup (l ++ [c]).
Proof.
  intros H Hc. apply Permutation.Permutation_NoDup with (c :: l); [|now constructor]. apply Permutation.Permutation_cons_append.
Qed.
Lemma kids_in P G i ks items : kids P G i ks items -> forall c, In c ks -> P c.
Proof. induction 1 as [|c kj ks items (H1 & _) _ IH]; intros d Hd; [now elim Hd|]. destruct Hd as [<-|Hd]; auto. Qed.
Lemma step_add ob des A v B a ta ks1 l1 c tc key x (P Q P' : N -> Prop) R :
  nth_error (rh R) des = Some (Some a, A) -> nth_error (rh R) v = Some (Some c, B) ->
  rG R a = Some ta -> tvalue ta = NCont ob ks1 -> tpar ta = None -> tend ta = true ->
  rG R c = Some tc -> tpar tc = None -> tkey tc = key -> (if ob then key <> None else key = None) ->
  a <> c -> NoDup ks1 -> lenN ks1 + 1 < two32 -> keyed ob l1 ->
  kids P (rG R) a ks1 l1 -> ~ P a -> ~ P c -> tree Q (rG R) x c -> ~ Q a -> ~ Q c ->
  (forall y, P y \/ Q y \/ y = c -> P' y) -> (items_values l1 + values x <= N.to_nat (rn R))%nat ->
  exists R', sstep jd (Api (CAdd ob true des v)) R = Some (Bool true, R') /\
    (exists ta', rG R' a = Some ta' /\ tvalue ta' = NCont ob (ks1 ++ [c]) /\ tpar ta' = None /\ tkey ta' = tkey ta /\ tend ta' = true) /\
    kids P' (rG R') a (ks1 ++ [c]) (l1 ++ [(key, x)]) /\ NoDup (ks1 ++ [c]) /\ keyed ob (l1 ++ [(key, x)]) /\
    (forall y, y <> a -> y <> c -> rG R' y = rG R y) /\ rn R' = rn R /\ length (rh R') = length (rh R) /\
    (forall h, h <> v -> nth_error (rh R') h = nth_error (rh R) h) /\ ru R' = ru R.
Proof.
  intros Hd Hv Ga Va Pa Ea Gc Pc Kc Ky Nac ND Lk Kd Hk NPa NPc Hx NQa NQc HP Hn.
  assert (Nc : ~ In c ks1) by (intro H; apply NPc; eapply kids_in; eauto).
  assert (Na : ~ In a ks1) by (intro H; apply NPa; eapply kids_in; eauto).
  set (G1 := if ob then rG R else rekeyN (rG R) c None).
  assert (G1o : forall y, y <> c -> G1 y = rG R y).
  { intros y Hy. unfold G1. destruct ob; auto. unfold rekeyN. now apply N.eqb_neq in Hy as ->. }
  assert (exists tc1, G1 c = Some tc1 /\ tvalue tc1 = tvalue tc /\ tpar tc1 = None /\ tkey tc1 = key) as (tc1 & G1c & V1 & P1 & K1).
  { unfold G1. destruct ob; [exists tc; auto|]. unfold rekeyN. rewrite N.eqb_refl, Gc. cbn [option_map]. eexists. split; [reflexivity|]. cbn. auto. }
  assert (exists G2, hang G1 ob a c = Some G2 /\ (forall y, y <> a -> y <> c -> G2 y = rG R y) /\
    (exists t', G2 a = Some t' /\ tvalue t' = NCont ob (ks1 ++ [c]) /\ tpar t' = None /\ tkey t' = tkey ta /\ tend t' = true) /\
    (exists t', G2 c = Some t' /\ tvalue t' = tvalue tc /\ tpar t' = Some a /\ tkey t' = key)) as (G2 & EG2 & G2o & (ta2 & G2a & Va2 & Pa2 & Ka2 & Ea2) & (tc2 & G2c & Vc2 & Pc2 & Kc2)).
  { unfold hang. rewrite (G1o a Nac), Ga, G1c, Va, P1, Ea. cbn [is_some negb]. rewrite eqb_reflx, (isinN_false a ks1 Na), orb_true_r.
    assert (E1 : (a =? c) = false) by now apply N.eqb_neq. assert (E2 : (lenN ks1 + 1 <? two32) = true) by now apply N.ltb_lt.
    rewrite E1, E2. cbn [andb negb]. eexists. split; [reflexivity|]. split; [|split].
    - intros y Ya Yc. apply N.eqb_neq in Ya as ->. pose proof Yc as Yc'. apply N.eqb_neq in Yc as ->. now apply G1o.
    - rewrite E1, N.eqb_refl. eexists. split; [reflexivity|]. cbn. auto.
    - rewrite N.eqb_refl. eexists. split; [reflexivity|]. cbn. auto. }
  assert (HK : kids P' G2 a (ks1 ++ [c]) (l1 ++ [(key, x)])).
  { apply kids_app; cbn [fst snd].
    - assert (M : forall y, P y -> P' y /\ G2 y = rG R y) by (intros y Hy; split; [auto|apply G2o; congruence]).
      eapply kids_mono; [|exact M|exact Hk]. intros y _ d Hy Pd. eapply tree_mono; [exact M|now apply M|exact Hy].
    - split; [auto|]. split; [|exists tc2; auto].
      assert (M : forall y, Q y -> G2 y = rG R y) by (intros y Hy; apply G2o; congruence).
      eapply tree_mono; [|reflexivity|eapply tree_root; [exact M|exact Gc|exact G2c|exact Vc2|exact Hx]]. auto. }
  assert (ND' : NoDup (ks1 ++ [c])) by now apply nodup_last.
  assert (Kd' : keyed ob (l1 ++ [(key, x)])) by (apply Forall_app; split; [exact Kd|constructor; [exact Ky|constructor]]).
  cbn [sstep rstep]. rewrite (look_some _ _ _ _ _ Hd Ga), (look_some _ _ _ _ _ Hv Gc), Va. cbn [is_cont]. rewrite eqb_reflx.
  assert (ob && negb (is_some (tkey tc)) = false) as ->.
  { destruct ob; auto. rewrite Kc. destruct key; [reflexivity|now elim Ky]. }
  unfold unhook. rewrite Gc, Pc. fold G1. rewrite EG2. unfold checked.
  rewrite (tree_read P' G2 (container ob (l1 ++ [(key, x)])) a); [| eapply tree_cont; eauto | rewrite container_values, items_values_app; unfold items_values at 2; cbn [map list_sum fold_right snd]; lia].
  eexists. split; [reflexivity|]. unfold with_handle, with_forest. cbn [rG rn rh ru]. rewrite Hv.
  split; [exists ta2; auto|]. split; [exact HK|]. split; [exact ND'|]. split; [exact Kd'|]. split; [exact G2o|]. split; [reflexivity|]. split; [apply length_setn|]. split; [|reflexivity].
  intros h Nh. rewrite nth_setn. destruct (Nat.eqb_spec h v); congruence.
Qed.

(** [R'] is [R] but for the node [a] and what is new. *)
Record grew (R : rst) (a : N) (R' : rst) : Prop := {
  gw_frame : forall x, x < rn R -> x <> a -> rG R' x = rG R x;
  gw_rn : rn R <= rn R';
  gw_len : (length (rh R) <= length (rh R'))%nat;
  gw_rh : forall h, (h < length (rh R))%nat -> nth_error (rh R') h = nth_error (rh R) h;
  gw_ru : length (ru R') = length (ru R)
}.
Lemma grew_refl R a : grew R a R. Proof. constructor; auto; lia. Qed.
Lemma grew_trans R a R1 R2 : grew R a R1 -> grew R1 a R2 -> grew R a R2.
Proof.
  intros [A1 A2 A3 A4 A5] [B1 B2 B3 B4 B5]. constructor; try lia.
  - intros x Lx Nx. rewrite B1; [auto|lia|auto].
  - intros h Lh. rewrite B4; [auto|lia].
Qed.
Lemma nth_app_l {U} (l r : list U) k : (k < length l)%nat -> nth_error (l ++ r) k = nth_error l k.
Proof. intro. now apply nth_error_app1. Qed.
Lemma nth_app_new {U} (l : list U) x : nth_error (l ++ [x]) (length l) = Some x.
Proof. rewrite nth_error_app2 by lia. now rewrite Nat.sub_diag. Qed.
Lemma step_new A R rest : (A < length (ru R))%nat -> room R (16 + rest) ->
  exists R', sstep jd (Api (CNewValue A)) R = Some (Value (Some (length (rh R))), R') /\ nth_error (rh R') (length (rh R)) = Some (None, A) /\
    rG R' = rG R /\ rn R' = rn R /\ rh R' = rh R ++ [(None, A)] /\ length (ru R') = length (ru R) /\ room R' rest.
Proof.
  intros LA Rm. cbn [sstep rstep]. destruct (spend_room R A 16 rest Rm LA) as (ru1 & -> & Lu & Ru). cbn [rh]. eexists. split; [reflexivity|].
  unfold new_value. cbn [rG rn rh ru]. split; [apply nth_app_new|]. auto.
Qed.
Lemma step_give R A o rest : (A < length (ru R))%nat -> room R (16 + rest) ->
  exists R' x, give R A o = Some (Value x, R') /\ match o with None => x = None | Some c => exists h, x = Some h /\ (length (rh R) <= h)%nat /\ nth_error (rh R') h = Some (Some c, A) end /\
    rG R' = rG R /\ rn R' = rn R /\ (length (rh R) <= length (rh R'))%nat /\ (forall h, (h < length (rh R))%nat -> nth_error (rh R') h = nth_error (rh R) h) /\
    length (ru R') = length (ru R) /\ room R' rest.
Proof.
  intros LA Rm. unfold give. destruct (spend_room R A 16 rest Rm LA) as (ru1 & -> & Lu & Ru). cbn [rh]. destruct o as [c|].
  - do 2 eexists. split; [reflexivity|].
    unfold new_value. cbn [rG rn rh ru]. split; [eexists; split; [reflexivity|split; [lia|apply nth_app_new]]|]. split; [auto|]. split; [auto|]. rewrite app_length. cbn [length]. split; [lia|].
    split; [|split; auto]. intros h Lh. now apply nth_app_l.
  - do 2 eexists. split; [reflexivity|]. cbn [rG rn rh ru]. repeat (split; auto).
Qed.

(** What a copy of [j] does. *)
Definition got (R : rst) (des A : nat) (wd : option N) (key : option bytes) (o : option json) (R' : rst) : Prop :=
  match o with
  | Some j => became R des A wd key R' /\ tree (fun x => rn R <= x < rn R' /\ x <> dnum R wd) (rG R') j (dnum R wd) /\ rn R + N.of_nat (values j) <= rn R' + old wd
  | None => same_docs R R'
  end.
Definition copies (n : nat) (j : json) : Prop := forall (A As src des : nat) (R : rst) (wd : option N) (key : option bytes) (i : N) (P : N -> Prop) (rest : N) (k : prog X),
  (values j <= n)%nat -> json_ok j -> dest R des A wd key -> src <> des -> nth_error (rh R) src = Some (Some i, As) ->
  (A < length (ru R))%nat -> (As < length (ru R))%nat -> tree P (rG R) j i -> (forall x, P x \/ x = i -> x < rn R /\ wd <> Some x) ->
  room R (copy_cost len j + rest) ->
  exists R', runs (get_and_set len n A src des k) R k R' /\ got R des A wd key (copied (o_str jd) j) R' /\ room R' rest.
Lemma got_frame R des A wd key o R' : got R des A wd key o R' ->
  (forall x, x < rn R -> wd <> Some x -> rG R' x = rG R x) /\ rn R <= rn R' /\ (length (rh R) <= length (rh R'))%nat /\
  (forall h, (h < length (rh R))%nat -> h <> des -> nth_error (rh R') h = nth_error (rh R) h) /\ length (ru R') = length (ru R).
Proof.
  destruct o as [j|]; cbn [got].
  - intros ([B1 B2 B3 B4 B5 B6 B7 B8] & _). auto.
  - intros (E1 & E2 & E3 & E4). rewrite E1, E2, E3, E4. split; auto. split; [lia|]. auto.
Qed.

(** A new value object, with a key if it is for an object and the key is accepted. *)
Definition key_kept (key : option bytes) : option bytes := match key with Some b => if o_str jd b then Some b else None | None => None end.
Lemma fresh (ob : bool) A As h c tc (key : option bytes) (go : nat -> prog X) (k : prog X) R rest :
  (if ob then key <> None else key = None) -> (match key with Some b => strbody b | None => True end) ->
  nth_error (rh R) h = Some (Some c, As) -> rG R c = Some tc -> (key <> None -> tkey tc = key) ->
  (A < length (ru R))%nat -> (As < length (ru R))%nat -> room R (16 + (match key with Some b => text_cost len b | None => 0 end) + rest) ->
  exists R2 wd, runs (Act (Api (CNewValue A)) (fun a => match a with
      | Value (Some v) => if ob then Act (KeyOf len v h) (fun a => match a with Done => k | _ => go v end) else go v
      | _ => Stuck end)) R (go (length (rh R))) R2 /\
    dest R2 (length (rh R)) A wd (key_kept key) /\ blank R2 wd /\ (wd = if key_kept key then Some (rn R) else None) /\ dnum R2 wd = rn R /\ rn R2 = rn R + old wd /\
    (forall x, x < rn R -> rG R2 x = rG R x) /\ (length (rh R) < length (rh R2))%nat /\
    (forall h, (h < length (rh R))%nat -> nth_error (rh R2) h = nth_error (rh R) h) /\ length (ru R2) = length (ru R) /\ room R2 rest.
Proof.
  intros Ky Kb Hh Gc Kc LA LAs Rm. rewrite <- N.add_assoc in Rm. destruct (step_new A R _ LA Rm) as (R1 & E1 & Hv & G1 & N1 & H1 & U1 & Rm1).
  pose proof (nth_lt _ _ _ Hh) as Lh. assert (Hh1 : nth_error (rh R1) h = Some (Some c, As)) by (rewrite H1, nth_app_l; auto).
  assert (L1 : (length (rh R) < length (rh R1))%nat) by (rewrite H1, app_length; cbn [length]; lia).
  destruct ob.
  - destruct key as [b|]; [|now elim Ky]. specialize (Kc ltac:(discriminate)). cbn [key_kept]. destruct (o_str jd b) eqn:Ob.
    + destruct (step_key (length (rh R)) A h As c tc b R1 rest) as (R2 & E2 & D2 & Bl & F2 & N2 & L2 & H2 & U2 & Rm2); auto; try congruence; [now apply (jd_str jd J)|].
      exists R2, (Some (rn R1)). split; [|split; [exact D2|]].
      * eapply runs_step; [exact E1|reflexivity|]. cbv beta iota. eapply runs_step; [exact E2|reflexivity|apply runs_refl].
      * split; [exact Bl|]. cbn [dnum old]. rewrite N1 in *. rewrite L2. split; [auto|]. split; [auto|]. split; [auto|]. split; [intros x Lx; rewrite F2; [now rewrite G1|auto]|].
        split; [lia|]. split; [|split; [congruence|auto]]. intros h' Lh'. rewrite H2 by lia. rewrite H1. now apply nth_app_l.
    + destruct (step_key_refused (length (rh R)) A h As c tc b R1 rest) as (R2 & E2 & (F2 & N2 & H2 & U2) & Rm2); auto; try congruence.
      exists R2, None. split; [|split; [split; [now rewrite H2|reflexivity]|]].
      * eapply runs_step; [exact E1|reflexivity|]. cbv beta iota. eapply runs_step; [exact E2|reflexivity|apply runs_refl].
      * split; [exact Logic.I|]. split; [reflexivity|]. cbn [dnum old]. rewrite F2, N2, H2, G1, N1. split; [auto|]. split; [lia|]. split; [auto|]. split; [auto|].
        split; [intros h' Lh'; rewrite H1; now apply nth_app_l|]. split; [congruence|auto].
  - subst key. exists R1, None. split; [eapply runs_step; [exact E1|reflexivity|apply runs_refl]|]. split; [split; auto|]. split; [exact Logic.I|]. split; [reflexivity|]. cbn [dnum old].
    rewrite G1, N1. split; [auto|]. split; [lia|]. split; [auto|]. split; [lia|]. split; [|auto]. intros h' Lh'. rewrite H1. now apply nth_app_l.
Qed.

Lemma lenN_more {U} (x : U) l : lenN (x :: l) = 1 + lenN l.
Proof. unfold lenN. cbn [length]. lia. Qed.
Lemma lenN_both {U} (l r : list U) : lenN (l ++ r) = lenN l + lenN r.
Proof. unfold lenN. rewrite app_length. lia. Qed.
Lemma split_at_mid c pre post : ~ In c pre -> split_at c (pre ++ c :: post) = Some (pre, post).
Proof.
  induction pre as [|x pre IH]; intro H; cbn [app split_at].
  - now rewrite N.eqb_refl.
  - destruct (N.eqb_spec x c) as [E|_]; [elim H; now left|]. rewrite IH; auto. intro K. apply H. now right.
Qed.

(** The loop over the members. *)
Lemma each_runs n' ob A As des a i ti key (k : prog X) rest (P : N -> Prop) lo : forall items pre ks2 m R ks1 l1 ans,
  Forall (fun kj => copies n' (snd kj)) items -> keyed ob items -> items_ok items -> (items_values items <= n')%nat -> (length items <= m)%nat ->
  nth_error (rh R) des = Some (Some a, A) -> (A < length (ru R))%nat -> (As < length (ru R))%nat ->
  (exists ta, rG R a = Some ta /\ tvalue ta = NCont ob ks1 /\ tpar ta = None /\ tkey ta = key /\ tend ta = true) ->
  kids (fun y => lo <= y < rn R /\ y <> a) (rG R) a ks1 l1 -> NoDup ks1 -> keyed ob l1 -> lenN ks1 + lenN items < two32 -> N.of_nat (items_values l1) <= rn R -> lo <= rn R -> a < rn R ->
  rG R i = Some ti -> nkids (tvalue ti) = pre ++ ks2 -> NoDup (pre ++ ks2) -> kids P (rG R) i ks2 items -> (forall x, P x \/ x = i -> x < rn R /\ x <> a) ->
  (match ks2 with [] => ans = Value None | c :: _ => exists h, ans = Value (Some h) /\ h <> des /\ nth_error (rh R) h = Some (Some c, As) end) ->
  room R (items_cost len items + rest) ->
  exists R' ks', runs (each len (get_and_set len n' A) ob A des k m ans) R k R' /\ grew R a R' /\
    (exists ta, rG R' a = Some ta /\ tvalue ta = NCont ob ks' /\ tpar ta = None /\ tkey ta = key /\ tend ta = true) /\
    kids (fun y => lo <= y < rn R' /\ y <> a) (rG R') a ks' (l1 ++ copied_items (o_str jd) items) /\ NoDup ks' /\ keyed ob (l1 ++ copied_items (o_str jd) items) /\
    rn R + N.of_nat (items_values (copied_items (o_str jd) items)) <= rn R' /\ room R' rest.
Proof.
  induction items as [|[ck x] items IH]; intros pre ks2 m R ks1 l1 ans HC HK HO Hv Hm Hd LA LAs (ta & Ga & Va & Pa & Ka & Ea) Hk ND Kd Lk Hl Llo La Gi Ki NDi Hs HP Han Rm.
  - inversion Hs; subst. exists R, ks1. cbn [copied_items]. rewrite app_nil_r. split; [rewrite Han; destruct m; apply runs_refl|]. split; [apply grew_refl|]. split; [exists ta; auto|].
    split; auto. split; auto. split; auto. split; [change (items_values []) with 0%nat; lia|exact Rm].
  - inversion Hs as [|c kj ks2' items' (Pc & Tc & tc & Gc & Pac & Kc) Hs']; subst. cbn [fst snd] in *. destruct Han as (h & -> & Nh & Hh).
    inversion HC as [|? ? Cx HC']; subst. inversion HK as [|? ? Kx HK']; subst. inversion HO as [|? ? (Ok1 & Ok3) HO']; subst. cbn [fst snd] in *.
    unfold items_values in Hv. cbn [map list_sum fold_right snd] in Hv. fold (list_sum (map (fun kj : option bytes * json => values (snd kj)) items)) in Hv. fold (items_values items) in Hv.
    destruct m as [|m']; [cbn in Hm; lia|]. cbn [length] in Hm. rewrite lenN_more in Lk.
    unfold items_cost in Rm. cbn [fold_right fst snd] in Rm. fold (items_cost len items) in Rm.
    pose proof (values_pos x) as Vx. pose proof (nth_lt _ _ _ Hh) as Lh. pose proof (nth_lt _ _ _ Hd) as Ld.
    cbn [each].
    match goal with |- context [Act (Api (CNewValue A)) ?f] => set (F := f) end.
    set (go := fun v => get_and_set len n' A h v (Act (Api (CAdd ob true des v)) (fun a0 => match a0 with Bool true => Act (Api (CNext h)) (each len (get_and_set len n' A) ob A des k m') | Bool false => k | _ => Stuck end))).
    destruct (fresh ob A As h c tc ck go k R (copy_cost len x + (16 + (items_cost len items + rest)))) as (R2 & wd & E2 & D2 & Bl & Kw & Dn & N2 & F2 & L2 & H2 & U2 & Rm2); auto.
    { eapply room_less; [exact Rm|]. lia. }
    assert (Lc : c < rn R /\ c <> a) by (apply HP; auto).
    assert (Old : old wd <= 1) by (destruct wd; cbn; lia).
    assert (HP2 : forall y, P y \/ y = c -> y < rn R2 /\ wd <> Some y).
    { intros y Hy. assert (y < rn R) by (apply HP; destruct Hy; [auto|subst; auto]). split; [lia|]. intros ->. cbn [dnum] in Dn. lia. }
    assert (T2 : tree P (rG R2) x c) by (eapply tree_mono; [|apply F2; lia|exact Tc]; intros y Hy; split; [auto|apply F2, HP; auto]).
    destruct (Cx A As h (length (rh R)) R2 wd (key_kept ck) c P (16 + (items_cost len items + rest))
      (Act (Api (CAdd ob true des (length (rh R)))) (fun a0 => match a0 with Bool true => Act (Api (CNext h)) (each len (get_and_set len n' A) ob A des k m') | Bool false => k | _ => Stuck end)))
      as (R3 & E3 & Got & Rm3); auto; try lia; try (rewrite U2; auto); [rewrite H2; auto|].
    destruct (got_frame _ _ _ _ _ _ _ Got) as (B2 & B3 & B6 & B7 & B8).
    assert (F3 : forall y, y < rn R -> rG R3 y = rG R y).
    { intros y Ly. rewrite B2; [auto|lia|]. intros ->. cbn [dnum] in Dn. lia. }
    assert (H3 : forall h, (h < length (rh R))%nat -> nth_error (rh R3) h = nth_error (rh R) h) by (intros h' Lh'; rewrite B7 by lia; auto).
    assert (Look : look R3 des = Some (Some (a, ta), A)) by (apply look_some; [rewrite H3; auto|rewrite F3; auto]).
    (* either the member is added, or the loop ends *)
    assert (Either : copied_items (o_str jd) ((ck, x) :: items) = [] /\ sstep jd (Api (CAdd ob true des (length (rh R)))) R3 = Some (Bool false, R3) \/
      exists y td, copied_items (o_str jd) ((ck, x) :: items) = (ck, y) :: copied_items (o_str jd) items /\ nth_error (rh R3) (length (rh R)) = Some (Some (rn R), A) /\
        rG R3 (rn R) = Some td /\ tpar td = None /\ tkey td = ck /\ tree (fun y => rn R2 <= y < rn R3 /\ y <> rn R) (rG R3) y (rn R) /\ rn R + N.of_nat (values y) <= rn R3 /\ rn R < rn R3).
    { clear IH. assert (NoNode : copied (o_str jd) x = None -> wd = None -> sstep jd (Api (CAdd ob true des (length (rh R)))) R3 = Some (Bool false, R3)).
      { intros Ec Ew. rewrite Ec in Got. destruct Got as (_ & _ & Eh & _). destruct D2 as [D2 _]. rewrite Ew, <- Eh in D2. cbn [sstep rstep]. rewrite Look, (look_none _ _ _ D2), Va. cbn [is_cont].
        rewrite eqb_reflx, andb_false_r. reflexivity. }
      destruct ck as [b|]; destruct ob; try (exfalso; congruence).
      - cbn [copied_items key_kept] in *. destruct (o_str jd b) eqn:Ob.
        + right. subst wd. cbn [dnum old] in *. destruct (copied (o_str jd) x) as [y|] eqn:Ec; cbn [got] in Got.
          * destruct Got as ([B1 _ _ B4 (td & Gd & Pd & Kd' & Ed) _ _ _] & T3 & V3). cbn [dnum old] in *. exists y, td. repeat (split; [auto; lia|]). lia.
          * destruct Got as (Eg & En & Eh & _). destruct D2 as (D2 & Ld2 & td & Gd & Pd & Kd'). destruct Bl as (td' & Gd' & Vd & Ed). assert (td' = td) by congruence. subst td'.
            exists JNull, td. rewrite Eg, En, Eh. split; [auto|]. split; [auto|]. split; [auto|]. split; [auto|]. split; [auto|]. split; [exists td; auto|]. cbn [values]. lia.
        + left. split; [reflexivity|]. subst wd.
          destruct (copied (o_str jd) x) as [y|] eqn:Ec; [|auto]. cbn [got] in Got.
          destruct Got as ([B1 _ _ B4 (td & Gd & Pd & Kd' & Ed) _ _ _] & _). cbn [dnum old] in *. cbn [sstep rstep]. rewrite Look, (look_some _ _ _ _ _ B1 Gd), Va. cbn [is_cont]. rewrite Kd'. reflexivity.
      - cbn [copied_items key_kept] in *. destruct (copied (o_str jd) x) as [y|] eqn:Ec.
        + right. destruct Got as ([B1 _ _ B4 (td & Gd & Pd & Kd' & Ed) _ _ _] & T3 & V3). rewrite Dn in *. exists y, td. repeat (split; [auto; lia|]). lia.
        + left. split; [reflexivity|]. apply NoNode; auto. }
    destruct Either as [[Ec Es]|(y & td & Ec & Hv3 & Gd & Pd & Kd' & T3 & V3 & L3)]; rewrite Ec.
    { exists R3, ks1. rewrite app_nil_r. split; [|split; [|split; [|split; [|split; [auto|split; [auto|split]]]]]].
      - eapply runs_trans; [exact E2|]. eapply runs_trans; [exact E3|]. eapply runs_step; [exact Es|reflexivity|apply runs_refl].
      - constructor; [intros z Lz _; auto|lia|lia|auto|congruence].
      - exists ta. rewrite F3 by lia. auto.
      - assert (M : forall z, lo <= z < rn R /\ z <> a -> (lo <= z < rn R3 /\ z <> a) /\ rG R3 z = rG R z) by (intros z Hz; split; [lia|apply F3; lia]).
        eapply kids_mono; [|exact M|exact Hk]. intros z _ d Hz Pd'. eapply tree_mono; [exact M|now apply M|exact Hz].
      - change (items_values []) with 0%nat. lia.
      - eapply room_less; [exact Rm3|]. lia. }
    destruct (step_add ob des A (length (rh R)) A a ta ks1 l1 (rn R) td ck y (fun y => lo <= y < rn R /\ y <> a) (fun y => rn R2 <= y < rn R3 /\ y <> rn R) (fun y => lo <= y < rn R3 /\ y <> a) R3)
      as (R4 & E4 & (ta' & Ga' & Va' & Pa' & Ka' & Ea') & Hk4 & ND4 & Kd4 & F4 & N4 & L4 & H4 & U4); auto; try lia.
    { rewrite H3; auto. } { rewrite F3; auto. } 
    { assert (M : forall y, lo <= y < rn R /\ y <> a -> (lo <= y < rn R /\ y <> a) /\ rG R3 y = rG R y) by (intros z Hz; split; [exact Hz|apply F3; lia]).
      eapply kids_mono; [|exact M|exact Hk]. intros z _ d Hz Pd'. eapply tree_mono; [exact M|now apply M|exact Hz]. }
    assert (F34 : forall y, y < rn R -> y <> a -> rG R4 y = rG R y) by (intros z Lz Nz; rewrite F4 by lia; auto).
    assert (H34 : forall h, (h < length (rh R))%nat -> nth_error (rh R4) h = nth_error (rh R) h) by (intros h' Lh'; rewrite H4 by lia; auto).
    assert (Li : i < rn R /\ i <> a) by (apply HP; auto).
    assert (Gc4 : rG R4 c = Some tc) by (rewrite F34; tauto). assert (Gi4 : rG R4 i = Some ti) by (rewrite F34; tauto).
    assert (Rm4 : room R4 (16 + (items_cost len items + rest))) by (intros u Hu; rewrite U4 in Hu; auto).
    destruct (step_give R4 As (hd_error ks2') (items_cost len items + rest)) as (R5 & o & E5 & Ho & G5 & N5 & L5 & H5 & U5 & Rm5); [rewrite U4; lia|auto|].
    assert (EN : sstep jd (Api (CNext h)) R4 = Some (Value o, R5)).
    { cbn [sstep rstep]. rewrite (look_some R4 h c tc As); [|rewrite H34; auto|auto]. rewrite Pac, Gi4, Ki, split_at_mid; [exact E5|].
      apply NoDup_remove_2 in NDi. intro K. apply NDi. apply in_or_app. now left. }
    assert (Gr5 : grew R a R5).
    { constructor; [intros z Lz Nz; rewrite G5; auto|lia|lia|intros h' Lh'; rewrite H5 by lia; auto|rewrite U5, U4; lia]. }
    destruct (IH (pre ++ [c]) ks2' m' R5 (ks1 ++ [rn R]) (l1 ++ [(ck, y)]) (Value o)) as (R' & ks' & E' & Gr & Ta & Hk' & ND' & Kd'' & V' & Rm'); auto; try lia.
    all: try (rewrite U5, U4, B8, U2; auto; fail).
    + rewrite H5 by lia. rewrite H34; auto.
    + rewrite G5. exists ta'. repeat (split; [auto; congruence|]). auto; congruence.
    + rewrite G5, N5, N4. exact Hk4.
    + rewrite lenN_both, lenN_more. change (lenN (@nil N)) with 0. lia.
    + rewrite items_values_app. unfold items_values at 2. cbn [map list_sum fold_right snd]. lia.
    + rewrite G5; auto.
    + rewrite <- app_assoc. exact Ki.
    + rewrite <- app_assoc. exact NDi.
    + rewrite G5. assert (M : forall y, P y -> P y /\ rG R4 y = rG R y) by (intros z Hz; split; [auto|apply F34; apply HP; auto]).
      eapply kids_mono; [|exact M|exact Hs']. intros z _ d Hz Pd'. eapply tree_mono; [exact M|now apply M|exact Hz].
    + intros z Hz. apply HP in Hz. lia.
    + destruct ks2' as [|c' ks2']; cbn [hd_error] in Ho; [now subst o|]. destruct Ho as (h' & -> & Lh' & Hh'). exists h'. split; [auto|]. split; [lia|auto].
    + rewrite <- app_assoc in *. cbn [app] in *. exists R', ks'. split; [|split; [eapply grew_trans; eauto|]].
      * eapply runs_trans; [exact E2|]. eapply runs_trans; [exact E3|]. eapply runs_step; [exact E4|reflexivity|]. cbv beta iota.
        eapply runs_step; [exact EN|reflexivity|exact E'].
      * repeat (split; auto). change (items_values ((ck, y) :: copied_items (o_str jd) items)) with (values y + items_values (copied_items (o_str jd) items))%nat. lia.
Qed.

Lemma became_grew R des A wd key R1 R2 ta : became R des A wd key R1 -> grew R1 (dnum R wd) R2 -> (des < length (rh R1))%nat ->
  rG R2 (dnum R wd) = Some ta -> tpar ta = None -> tkey ta = key -> tend ta = true -> became R des A wd key R2.
Proof.
  intros [B1 B2 B3 B4 B5 B6 B7 B8] [G1 G2 G3 G4 G5] Ld Ga Pa Ka Ea. constructor; try lia.
  - rewrite G4; auto.
  - intros x Lx Nx. rewrite G1; [auto|lia|]. unfold dnum. destruct wd as [d|]; [congruence|lia].
  - exists ta. auto.
  - intros h Lh Nh. rewrite G4; [auto|lia].
Qed.
Lemma copies_cont ob items n A As src des R wd key i ti ks (P : N -> Prop) rest k :
  Forall (fun kj => copies n (snd kj)) items -> keyed ob items -> items_ok items -> (items_values items <= n)%nat ->
  dest R des A wd key -> src <> des -> nth_error (rh R) src = Some (Some i, As) -> (A < length (ru R))%nat -> (As < length (ru R))%nat ->
  rG R i = Some ti -> tvalue ti = NCont ob ks -> NoDup ks -> kids P (rG R) i ks items -> (forall x, P x \/ x = i -> x < rn R /\ wd <> Some x) ->
  room R (88 + items_cost len items + rest) ->
  exists R', runs (get_and_set len (Datatypes.S n) A src des k) R k R' /\ got R des A wd key (Some (container ob (copied_items (o_str jd) items))) R' /\ room R' rest.
Proof.
  intros HC HK HO Hv D Ns Hs LA LAs Gi Vi ND Hk HP Rm.
  destruct (spend_room R A 72 (16 + (items_cost len items + rest))) as (ru1 & Es & Lu & Ru); [eapply room_less; [exact Rm|lia]|auto|].
  set (R0 := mkR (rG R) (rn R) (rh R) ru1). assert (D0 : dest R0 des A wd key) by exact D.
  destruct (set_leaf R0 des A wd key (container ob []) (NCont ob []) false D0) as (B & (td & Gd & Vd) & En & Eu); [intros; now destruct ob|].
  set (R1 := assign R0 des (wnode R0 wd) (container ob [])) in *. cbv zeta in *.
  assert (B' : became R des A wd key R1) by (eapply became_from; [..|exact B]; auto). change (dnum R0 wd) with (dnum R wd) in *. change (rn R0) with (rn R) in *.
  assert (Ni : forall x, P x \/ x = i -> x < rn R /\ x <> dnum R wd).
  { intros x Hx. destruct (HP x Hx) as [H1 H2]. split; auto. unfold dnum. destruct wd; [congruence|lia]. }
  pose proof (nth_lt _ _ _ Hs) as Ls. pose proof (nth_lt _ _ _ (proj1 D)) as Ld.
  destruct B' as [B1 B2 B3 B4 (td' & Gd' & Pd & Kd & Ed) B6 B7 B8]. assert (td' = td) by congruence. subst td'.
  assert (F1 : forall x, P x \/ x = i -> rG R1 x = rG R x) by (intros x Hx; apply B2; now apply HP).
  assert (Gi1 : rG R1 i = Some ti) by (rewrite F1; auto).
  destruct (step_give R1 As (hd_error ks) (items_cost len items + rest)) as (R2 & o & E2 & Ho & G2 & N2 & L2 & H2 & U2 & Rm2).
  { rewrite B8; auto. } { intros u Hu. rewrite Eu in Hu. now apply Ru. }
  destruct (each_runs n ob A As des (dnum R wd) i ti key k rest P (rn R) items [] ks n R2 [] [] (Value o)) as (R' & ks' & E' & Gr & (ta & Ga & Va & Pa & Ka & Ea) & Hk' & ND' & Kd' & V' & Rm'); auto; try lia.
  all: try (rewrite U2, B8; auto; fail).
  all: try (rewrite G2; auto; fail).
  all: try (constructor; fail).
  - clear -Hv. revert Hv. unfold items_values. intro H. enough (length items <= list_sum (map (fun kj => values (snd kj)) items))%nat by lia. clear H.
    induction items as [|kj items IH]; [apply Nat.le_refl|]. cbn [map list_sum fold_right length]. pose proof (values_pos (snd kj)). unfold list_sum in *. lia.
  - rewrite H2 by lia. auto.
  - rewrite G2. exists td. auto.
  - change (lenN (@nil N)) with 0. pose proof (room_len _ _ _ Rm LA) as Le. assert (32 * lenN items <= items_cost len items).
    { clear. induction items as [|kj items IH]; [apply N.le_refl|]. rewrite lenN_more. unfold items_cost in *. cbn [fold_right]. lia. }
    unfold two30, two32 in *. lia.
  - change (items_values []) with 0%nat. lia.
  - rewrite Vi. reflexivity.
  - rewrite G2. assert (M : forall y, P y -> P y /\ rG R1 y = rG R y) by (intros y Hy; split; [auto|apply F1; auto]).
    eapply kids_mono; [|exact M|exact Hk]. intros y _ d Hy Pd'. eapply tree_mono; [exact M|now apply M|exact Hy].
  - intros x Hx. apply Ni in Hx. lia.
  - destruct ks as [|c ks]; cbn [hd_error] in Ho; [now subst o|]. destruct Ho as (h & -> & Lh & Hh). exists h. split; auto. split; [lia|auto].
  - cbn [app] in *. exists R'. split; [|split; [split; [|split]|exact Rm']].
    + cbn [get_and_set]. eapply runs_step; [cbn [sstep rstep]; rewrite (look_some _ _ _ _ _ Hs Gi); reflexivity|reflexivity|].
      cbn [option_map snd]. rewrite Vi. destruct ob; cbn [ntype].
      all: (eapply runs_step; [cbn [sstep rstep]; rewrite (dest_look _ _ _ _ _ D), Es; reflexivity|reflexivity|]).
      all: change (assign _ _ _ _) with R1.
      all: (eapply runs_step; [cbn [sstep rstep]; rewrite (look_some R1 src i ti As); [rewrite Vi; cbn [nkids]; exact E2|rewrite B7; auto|exact Gi1]|reflexivity|exact E']).
    + eapply became_grew; [exact (Build_became _ _ _ _ _ _ B1 B2 B3 B4 (ex_intro _ td (conj Gd (conj Pd (conj Kd Ed)))) B6 B7 B8)| | |exact Ga|auto..]; [|lia].
      destruct Gr as [g1 g2 g3 g4 g5]. constructor; try lia.
      * intros x Lx Nx. rewrite g1; [now rewrite G2|lia|auto].
      * intros h Lh. rewrite g4; [auto|lia].
    + eapply tree_cont; eauto.
    + rewrite container_values. lia.
Qed.

Lemma leaf_copies j v A As src des R wd key i rest (k : prog X) n (P : N -> Prop) : (j = JNull /\ v = NNull \/ exists b, j = JBool b /\ v = NBool b) ->
  dest R des A wd key -> nth_error (rh R) src = Some (Some i, As) -> (A < length (ru R))%nat -> tree P (rG R) j i -> room R (72 + rest) ->
  exists R', runs (get_and_set len (Datatypes.S n) A src des k) R k R' /\ became R des A wd key R' /\
    (exists td, rG R' (dnum R wd) = Some td /\ tvalue td = v) /\ rn R + 1 = rn R' + old wd /\ room R' rest.
Proof.
  intros Hj D Hs LA T Rm. destruct (spend_room R A 72 rest) as (ru1 & Es & Lu & Ru); auto.
  set (R0 := mkR (rG R) (rn R) (rh R) ru1). assert (D0 : dest R0 des A wd key) by exact D.
  destruct (set_leaf R0 des A wd key j v false D0) as (B & Nd & En & Eu); [intros; destruct Hj as [[-> ->]|(? & -> & ->)]; reflexivity|].
  set (R1 := assign R0 des (wnode R0 wd) j) in *. cbv zeta in *.
  exists R1. split; [|split; [eapply became_from; [..|exact B]; auto|split; [exact Nd|split; [exact En|]]]].
  - assert (exists ti, rG R i = Some ti /\ tvalue ti = v) as (ti & Gi & Vi) by (destruct Hj as [[-> ->]|(? & -> & ->)]; exact T).
    cbn [get_and_set]. eapply runs_step; [cbn [sstep rstep]; rewrite (look_some _ _ _ _ _ Hs Gi); reflexivity|reflexivity|].
    cbn [option_map snd]. rewrite Vi. destruct Hj as [[-> ->]|(b' & -> & ->)]; cbn [ntype].
    all: (eapply runs_step; [cbn [sstep rstep]; rewrite (look_some _ _ _ _ _ Hs Gi), Vi; reflexivity|reflexivity|]).
    all: (eapply runs_step; [cbn [sstep rstep]; rewrite (dest_look _ _ _ _ _ D), Es; reflexivity|reflexivity|apply runs_refl]).
  - intros u Hu. rewrite Eu in Hu. now apply Ru.
Qed.

Theorem all_copies : forall j n, copies n j.
Proof.
  induction j as [|b|b|b|l IH|l IH] using json_ind2; intros n A As src des R wd key i P rest k Hv HO D Ns Hs LA LAs T HP Rm; (destruct n as [|n]; [exfalso; cbn in Hv; lia|]).
  - destruct (leaf_copies JNull NNull A As src des R wd key i rest k n P) as (R' & E & B & (td & Gd & Vd) & En & Rm'); auto.
    exists R'. split; [exact E|]. split; [split; [exact B|split; [exists td; auto|cbn [values]; lia]]|exact Rm'].
  - destruct (leaf_copies (JBool b) (NBool b) A As src des R wd key i rest k n P) as (R' & E & B & (td & Gd & Vd) & En & Rm'); eauto.
    exists R'. split; [exact E|]. split; [split; [exact B|split; [exists td; auto|cbn [values]; lia]]|exact Rm'].
  - destruct T as (ti & Gi & Vi). inversion HO as [| |b' Hb| | |]; subst.
    destruct (step_text true des A wd key src As i ti b R rest) as (R' & E & B & (td & Gd & Vd) & En & Rm'); auto; [now rewrite Vi|].
    exists R'. split; [|split; [split; [exact B|split; [exists td; auto|cbn [values]; lia]]|exact Rm']].
    cbn [get_and_set]. eapply runs_step; [cbn [sstep rstep]; rewrite (look_some _ _ _ _ _ Hs Gi); reflexivity|reflexivity|].
    cbn [option_map snd]. rewrite Vi. cbn [ntype]. eapply runs_step; [exact E|reflexivity|apply runs_refl].
  - destruct T as (ti & Gi & Vi). inversion HO as [| | |b' Hb| |]; subst. cbn [copied]. destruct (o_str jd b) eqn:Ob.
    + destruct (step_text false des A wd key src As i ti b R rest) as (R' & E & B & (td & Gd & Vd) & En & Rm'); auto; [now rewrite Vi|now apply (jd_str jd J)|].
      exists R'. split; [|split; [split; [exact B|split; [exists td; auto|cbn [values]; lia]]|exact Rm']].
      cbn [get_and_set]. eapply runs_step; [cbn [sstep rstep]; rewrite (look_some _ _ _ _ _ Hs Gi); reflexivity|reflexivity|].
      cbn [option_map snd]. rewrite Vi. cbn [ntype]. eapply runs_step; [exact E|reflexivity|apply runs_refl].
    + destruct (step_refused des A wd key src As i ti b R rest) as (R' & E & B & Rm'); auto.
      exists R'. split; [|split; [exact B|exact Rm']].
      cbn [get_and_set]. eapply runs_step; [cbn [sstep rstep]; rewrite (look_some _ _ _ _ _ Hs Gi); reflexivity|reflexivity|].
      cbn [option_map snd]. rewrite Vi. cbn [ntype]. eapply runs_step; [exact E|reflexivity|apply runs_refl].
  - apply tree_arr in T as (ti & ks & Gi & Vi & ND & Hk). rewrite arr_values in Hv. rewrite arr_cost in Rm. rewrite arr_copied.
    eapply copies_cont; eauto using arr_keyed, arr_ok; [|lia].
    apply Forall_forall. intros kj Hkj. apply in_map_iff in Hkj as (x & <- & Hx). rewrite Forall_forall in IH. apply (IH x Hx).
  - apply tree_obj in T as (ti & ks & Gi & Vi & ND & Hk). rewrite obj_values in Hv. rewrite obj_cost in Rm. rewrite obj_copied.
    eapply copies_cont; eauto using obj_keyed, obj_ok; [|lia].
    apply Forall_forall. intros kj Hkj. apply in_map_iff in Hkj as (x & <- & Hx). rewrite Forall_forall in IH. cbn [snd]. apply (IH x Hx).
Qed.
End Run.
