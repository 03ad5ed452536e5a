(** The memory: invariant, weakest preconditions, and the relation [ext] that
    says how far one state extends another. *)
From Verif Require Import Base Lex LexProofs Alloc AllocProofs Mem.

(** ** Addresses *)
Lemma addr_eqb_spec (a b : addr) : reflect (a = b) (addr_eqb a b).
Proof.
  destruct a as [x y], b as [x' y']. unfold addr_eqb. simpl.
  destruct (N.eqb_spec x x'); destruct (N.eqb_spec y y'); simpl; constructor; congruence.
Qed.
Lemma addr_eqb_refl a : addr_eqb a a = true.
Proof. destruct (addr_eqb_spec a a); congruence. Qed.
Lemma addr_eqb_neq a b : a <> b -> addr_eqb a b = false.
Proof. destruct (addr_eqb_spec a b); congruence. Qed.
Lemma addr_dec (a b : addr) : {a = b} + {a <> b}.
Proof. destruct (addr_eqb_spec a b); auto. Qed.
Lemma upd_eq {A} m a (x : A) : upd m a x a = Some x.
Proof. unfold upd. now rewrite addr_eqb_refl. Qed.
Lemma upd_neq {A} m a (x : A) b : b <> a -> upd m a x b = m b.
Proof. intro H. unfold upd. now rewrite addr_eqb_neq. Qed.
Lemma updN_eq {A} (m : N -> option A) a x : updN m a x a = x.
Proof. unfold updN. now rewrite N.eqb_refl. Qed.
Lemma updN_neq {A} (m : N -> option A) a x b : b <> a -> updN m a x b = m b.
Proof. intro H. unfold updN. destruct (N.eqb_spec b a); congruence. Qed.
Lemma offset_0 a : offset a 0 = a.
Proof. destruct a. unfold offset. simpl. now rewrite N.add_0_r. Qed.
Lemma offset_offset a x y : offset (offset a x) y = offset a (x + y).
Proof. unfold offset. simpl. now rewrite N.add_assoc. Qed.
Lemma offset_eta a n : (fst a, snd a + n) = offset a n.
Proof. reflexivity. Qed.

(** ** Weakest precondition: the run ends well and [Q] holds. *)
Definition wp {A} (m : M A) (s : st) (Q : A -> st -> Prop) : Prop :=
  exists a s', m s = Ok (a, s') /\ Q a s'.

Lemma wp_ret {A} (a : A) s (Q : A -> st -> Prop) : Q a s -> wp (ret a) s Q.
Proof. intro H. exists a, s. auto. Qed.
Lemma wp_bind {A B} (m : M A) (f : A -> M B) s Q :
  wp m s (fun a s' => wp (f a) s' Q) -> wp (bind m f) s Q.
Proof.
  intros (a & s' & E & b & s'' & E2 & H). exists b, s''. split; auto.
  unfold bind. now rewrite E.
Qed.
Lemma wp_mono {A} (m : M A) s (Q Q' : A -> st -> Prop) :
  wp m s Q -> (forall a s', Q a s' -> Q' a s') -> wp m s Q'.
Proof. intros (a & s' & E & H) K. exists a, s'. auto. Qed.
Lemma wp_lift {A} (r : res A) a s (Q : A -> st -> Prop) : r = Ok a -> Q a s -> wp (lift r) s Q.
Proof. intros -> H. exists a, s. auto. Qed.
Lemma wp_get {A} (f : st -> option A) e a s (Q : A -> st -> Prop) :
  f s = Some a -> Q a s -> wp (get f e) s Q.
Proof. intros E H. exists a, s. unfold get. now rewrite E. Qed.
Lemma wp_getNode a n s (Q : node -> st -> Prop) : snodes s a = Some n -> Q n s -> wp (getNode a) s Q.
Proof. intros. now apply wp_get with n. Qed.
Lemma wp_getVal a n s (Q : zval -> st -> Prop) : svals s a = Some n -> Q n s -> wp (getVal a) s Q.
Proof. intros. now apply wp_get with n. Qed.
Lemma wp_getZ a n s (Q : zstr -> st -> Prop) : sstrs s a = Some n -> Q n s -> wp (getZ a) s Q.
Proof. intros. now apply wp_get with n. Qed.
Lemma wp_deref a s (Q : addr -> st -> Prop) : Q a s -> wp (deref (At a)) s Q.
Proof. apply wp_ret. Qed.
Lemma wp_readable a s (Q : bytes -> st -> Prop) : Q (text_at s a) s -> wp (readable a) s Q.
Proof. intro H. eexists _, _. split; [reflexivity|exact H]. Qed.
Lemma wp_run {A} (m : M A) s Q a s' : wp m s Q -> m s = Ok (a, s') -> Q a s'.
Proof. intros (b & t & E & H) E2. rewrite E in E2. injection E2 as <- <-. auto. Qed.

(** ** Regions *)
Definition inrA (s : st) (A : N) (a : addr) (n : N) : Prop :=
  exists ar c, sallocs s A = Some ar /\ In c ar /\ fst a = ckBlk c /\
    ckBase c <= snd a /\ snd a + n <= ckBase c + ckPos c.
Definition nothing (s : st) (a : addr) : Prop :=
  sbytes s a = None /\ snodes s a = None /\ svals s a = None /\ sstrs s a = None.
Definition ownblk (s : st) (b : N) : Prop :=
  exists A ar c, sallocs s A = Some ar /\ In c ar /\ ckBlk c = b.
Definition cacheR (s : st) (a : addr) : Prop :=
  exists p z, scache s = At p /\ sstrs s p = Some z /\ fst a = fst (zData z) /\
    snd (zData z) <= snd a < snd (zData z) + zSize z.
Definition usedA (s : st) (A : N) : N :=
  match sallocs s A with Some ar => used ar | None => 0 end.
Definition alive (s : st) (A : N) : Prop := sallocs s A <> None.
(** Not handed out yet: past the used part of a chunk, or in a block to come. *)
Definition beyond (s : st) (a : addr) : Prop :=
  snext s <= fst a \/ exists A ar c, sallocs s A = Some ar /\ In c ar /\ ckBlk c = fst a /\
    ckBase c + ckPos c <= snd a.
(** Every chunk of [s'] is new or a chunk of [s], perhaps fuller. *)
Definition chunks_from (s s' : st) : Prop :=
  forall A ar c, sallocs s' A = Some ar -> In c ar ->
    snext s <= ckBlk c \/ exists ar0 c0, sallocs s A = Some ar0 /\ In c0 ar0 /\
      ckBlk c0 = ckBlk c /\ ckBase c0 = ckBase c /\ ckPos c0 <= ckPos c.

Record wfst (s : st) : Prop := {
  w_next : forall b, snext s <= b -> sbsize s b = None /\ sallocs s b = None;
  w_zero : 0 < snext s;
  w_ar : forall A ar, sallocs s A = Some ar ->
    wf_arena ar /\ NoDup (map ckBlk ar) /\ exists ar', map ckBlk ar = ar' ++ [A];
  w_chunk : forall A ar c, sallocs s A = Some ar -> In c ar ->
    sbsize s (ckBlk c) = Some (ckBase c + ckSize c) /\ ckBlk c <> 0 /\
    forall o, ckBase c + ckPos c <= o -> nothing s (ckBlk c, o);
  w_own : forall A A' ar ar' c c', sallocs s A = Some ar -> sallocs s A' = Some ar' ->
    In c ar -> In c' ar' -> ckBlk c = ckBlk c' -> A = A';
  w_dead : forall a, sbsize s (fst a) = None -> nothing s a;
  w_bytes : forall a x, sbytes s a = Some x -> exists n, sbsize s (fst a) = Some n /\ snd a < n;
  w_static : forall o, sbytes s (0, o) = nth_error static_text (N.to_nat o);
  w_cache : match scache s with
            | Undef => False
            | Null => True
            | At p => match sstrs s p with
                      | None => True
                      | Some z => inrA s (zA z) p sizeof_string /\
                          inrA s (zA z) (zData z) (zSize z) /\ 0 < zSize z
                      end
            end
}.

Lemma cacheR_dec s a : cacheR s a \/ ~ cacheR s a.
Proof.
  unfold cacheR. destruct (scache s) as [| |p] eqn:Ec; [right; intros (p & z & H & _); discriminate..|].
  destruct (sstrs s p) as [z|] eqn:Ez.
  - destruct (N.eq_dec (fst a) (fst (zData z))) as [E|E].
    + destruct (N.le_gt_cases (snd (zData z)) (snd a)) as [L|L].
      * destruct (N.lt_ge_cases (snd a) (snd (zData z) + zSize z)) as [L2|L2].
        -- left. exists p, z. auto.
        -- right. intros (p' & z' & E1 & E2 & _ & H). injection E1 as <-. rewrite Ez in E2.
           injection E2 as <-. lia.
      * right. intros (p' & z' & E1 & E2 & _ & H). injection E1 as <-. rewrite Ez in E2.
        injection E2 as <-. lia.
    + right. intros (p' & z' & E1 & E2 & H & _). injection E1 as <-. rewrite Ez in E2.
      injection E2 as <-. auto.
  - right. intros (p' & z' & E1 & E2 & _). injection E1 as <-. congruence.
Qed.

(** ** Initial state *)
Lemma upd_bytes_in m a bs i : (i < length bs)%nat ->
  upd_bytes m a bs (offset a (N.of_nat i)) = nth_error bs i.
Proof.
  intro H. unfold upd_bytes, offset. simpl.
  rewrite N.eqb_refl. replace (snd a <=? snd a + N.of_nat i) with true by (symmetry; bools; lia).
  replace (snd a + N.of_nat i <? snd a + N.of_nat (length bs)) with true by (symmetry; bools; lia).
  simpl. f_equal. lia.
Qed.
Lemma upd_bytes_out m a bs y : ~ (fst y = fst a /\ snd a <= snd y < snd a + N.of_nat (length bs)) ->
  upd_bytes m a bs y = m y.
Proof.
  intro H. unfold upd_bytes.
  destruct ((fst y =? fst a) && (snd a <=? snd y) && (snd y <? snd a + N.of_nat (length bs))) eqn:E; auto.
  bools. exfalso. apply H. lia.
Qed.
Lemma upd_bytes_cases m a bs y :
  (exists i, (i < length bs)%nat /\ y = offset a (N.of_nat i) /\ upd_bytes m a bs y = nth_error bs i) \/
  (~ (fst y = fst a /\ snd a <= snd y < snd a + N.of_nat (length bs)) /\ upd_bytes m a bs y = m y).
Proof.
  destruct (N.eq_dec (fst y) (fst a)) as [E|E];
    [destruct (N.le_gt_cases (snd a) (snd y)) as [L|L];
     [destruct (N.lt_ge_cases (snd y) (snd a + N.of_nat (length bs))) as [L2|L2]|]|].
  - left. exists (N.to_nat (snd y - snd a)).
    assert (Ey : y = offset a (N.of_nat (N.to_nat (snd y - snd a)))).
    { destruct y, a. unfold offset. simpl in *. f_equal; lia. }
    split; [lia|]. split; auto. rewrite Ey at 1. apply upd_bytes_in. lia.
  - right. split; [lia|]. apply upd_bytes_out. lia.
  - right. split; [lia|]. apply upd_bytes_out. lia.
  - right. split; [lia|]. apply upd_bytes_out. lia.
Qed.

Lemma wfst_init : wfst init.
Proof.
  constructor; simpl.
  - intros b Hb. split; auto. rewrite updN_neq by lia. reflexivity.
  - lia.
  - intros; discriminate.
  - intros; discriminate.
  - intros; discriminate.
  - intros [b o] H. simpl in H. unfold nothing. simpl. repeat split; auto.
    destruct (N.eq_dec b 0) as [->|Hb]; [discriminate|].
    apply upd_bytes_out. simpl. lia.
  - intros [b o] x H. destruct (upd_bytes_cases (fun _ => None) (0,0) static_text (b,o)) as [(i & Hi & E & _)|[_ E]].
    + injection E as -> ->. exists (N.of_nat (length static_text)). split; auto. simpl snd. lia.
    + rewrite E in H. discriminate.
  - intro o. destruct (upd_bytes_cases (fun _ => None) (0,0) static_text (0,o)) as [(i & Hi & E & Eu)|[H E]].
    + rewrite Eu. injection E as ->. f_equal. lia.
    + rewrite E. symmetry. apply nth_error_None. simpl fst in H. simpl snd in H. lia.
  - exact I.
Qed.

(** ** Allocation keeps the invariant *)
Lemma inrA_size s A a n : wfst s -> inrA s A a n ->
  exists m, sbsize s (fst a) = Some m /\ snd a + n <= m.
Proof.
  intros W (ar & c & Ha & Hc & E & H1 & H2). destruct (w_chunk s W _ _ _ Ha Hc) as (Hs & _ & _).
  exists (ckBase c + ckSize c). rewrite E. split; auto.
  destruct (w_ar s W _ _ Ha) as ([_ HF] & _). rewrite Forall_forall in HF. specialize (HF _ Hc). simpl in HF. lia.
Qed.
Lemma inrA_alive s A a n : inrA s A a n -> alive s A.
Proof. intros (ar & c & H & _) E. congruence. Qed.
Lemma inrA_not0 s A a n : wfst s -> inrA s A a n -> fst a <> 0.
Proof. intros W (ar & c & Ha & Hc & E & _). rewrite E. now destruct (w_chunk s W _ _ _ Ha Hc) as (_ & H & _). Qed.
Lemma inrA_own s A a n : inrA s A a n -> ownblk s (fst a).
Proof. intros (ar & c & Ha & Hc & E & _). exists A, ar, c. auto. Qed.
Lemma inrA_shift s A a n k m : inrA s A a n -> k + m <= n -> inrA s A (offset a k) m.
Proof.
  intros (ar & c & Ha & Hc & E & H1 & H2) L. exists ar, c. unfold offset. simpl. repeat split; auto; lia.
Qed.
Lemma inrA_less s A a n m : inrA s A a n -> m <= n -> inrA s A a m.
Proof. intros H L. rewrite <- (offset_0 a). apply (inrA_shift _ _ _ n); auto; lia. Qed.
Lemma ownblk_lt s b : wfst s -> ownblk s b -> b < snext s.
Proof.
  intros W (A & ar & c & Ha & Hc & <-). destruct (w_chunk s W _ _ _ Ha Hc) as (Hs & _ & _).
  destruct (N.lt_ge_cases (ckBlk c) (snext s)) as [L|L]; auto.
  destruct (w_next s W _ L) as [K _]. congruence.
Qed.

(** What one allocation does. *)
Record alloc_post (A n : N) (s : st) (a : addr) (s' : st) : Prop := {
  ap_wf : wfst s';
  ap_bytes : sbytes s' = sbytes s;
  ap_nodes : snodes s' = snodes s;
  ap_vals : svals s' = svals s;
  ap_strs : sstrs s' = sstrs s;
  ap_cache : scache s' = scache s;
  ap_in : inrA s' A a n;
  ap_new : forall o, snd a <= o -> beyond s (fst a, o);
  ap_old : forall A' b m, inrA s A' b m -> inrA s' A' b m /\
    (0 < n -> 0 < m -> fst b <> fst a \/ snd b + m <= snd a \/ snd a + n <= snd b);
  ap_size : forall b m, sbsize s b = Some m -> sbsize s' b = Some m;
  ap_chunks : chunks_from s s';
  ap_next : snext s <= snext s';
  ap_used : usedA s' A = usedA s A + n;
  ap_other : forall A', A' <> A -> sallocs s' A' = sallocs s A';
  ap_zero : n = 0 -> sallocs s' A = sallocs s A;
  ap_alive : alive s' A
}.

Lemma alloc_wp A n s : wfst s -> alive s A -> usedA s A + n <= two30 ->
  wp (zj_allocatorAlloc A n) s (alloc_post A n s).
Proof.
  intros W Hal Hu. unfold alive in Hal. unfold wp.
  destruct (sallocs s A) as [ar|] eqn:Ha; [|congruence].
  destruct (w_ar s W _ _ Ha) as (Hwf & Hnd & Hroot).
  assert (Hu' : used ar + n <= two30) by (unfold usedA in Hu; rewrite Ha in Hu; exact Hu).
  destruct (arena_alloc_ok (snext s) ar n Hwf Hu') as (o & Eo & Hc & Hwf' & Hused).
  assert (Hn : u32 n = n) by (apply u32_small; unfold two30, two32 in *; lia).
  assert (Hz : n = 0 -> oarena o = ar).
  { intros ->. destruct (alloc_zero (snext s) ar Hwf ltac:(lia)) as (o' & E' & H1 & H2). congruence. }
  unfold zj_allocatorAlloc. rewrite Ha, Hn, Eo. cbv zeta.
  inversion Hc as [c r Ear Hfit Eo'|sz H1 H2 H3 Eo']; subst o; cbn [oaddr oarena onew fst snd] in *.
  - (* in the current chunk *)
    assert (Hin : In c ar) by (subst ar; left; auto).
    destruct (w_chunk s W _ _ _ Ha Hin) as (Hs & Hnz & Hnew).
    rewrite Hs.
    replace (ckBase c + ckSize c <? ckBase c + ckPos c + n) with false by (symmetry; bools; lia).
    set (c' := mkChunk (ckBlk c) (ckBase c) (ckSize c) (ckPos c + n)) in *.
    eexists _, _. split; [reflexivity|].
    assert (Hold : forall A' ar' x, sallocs s A' = Some ar' -> In x ar' ->
      exists ar'' y, updN (sallocs s) A (Some (c' :: r)) A' = Some ar'' /\ In y ar'' /\
        ckBlk y = ckBlk x /\ ckBase y = ckBase x /\ ckPos x <= ckPos y).
    { intros A' ar' x HA Hx. destruct (N.eq_dec A' A) as [->|D].
      - exists (c' :: r). rewrite updN_eq. rewrite Ha in HA. injection HA as <-. rewrite Ear in Hx.
        destruct Hx as [<-|Hx].
        + exists c'. repeat split; auto. left; auto. simpl. lia.
        + exists x. repeat split; auto. right; auto. lia.
      - exists ar', x. rewrite updN_neq by auto. repeat split; auto. lia. }
    assert (Hback : forall A' ar'' y, updN (sallocs s) A (Some (c' :: r)) A' = Some ar'' -> In y ar'' ->
      exists ar' x, sallocs s A' = Some ar' /\ In x ar' /\ ckBlk y = ckBlk x /\ ckBase y = ckBase x /\
        ckSize y = ckSize x /\ ckPos x <= ckPos y).
    { intros A' ar'' y HA Hy. destruct (N.eq_dec A' A) as [->|D].
      - rewrite updN_eq in HA. injection HA as <-. exists ar. rewrite Ear. destruct Hy as [<-|Hy].
        + exists c. rewrite Ha, Ear. repeat split; auto. left; auto. simpl. lia.
        + exists y. rewrite Ha, Ear. repeat split; auto. right; auto. lia.
      - rewrite updN_neq in HA by auto. exists ar'', y. repeat split; auto. lia. }
    assert (Hinr : forall A' b m, inrA s A' b m -> exists ar'' y,
      updN (sallocs s) A (Some (c' :: r)) A' = Some ar'' /\ In y ar'' /\ fst b = ckBlk y /\
      ckBase y <= snd b /\ snd b + m <= ckBase y + ckPos y).
    { intros A' b m (ar' & x & HA & Hx & E1 & E2 & E3).
      destruct (Hold _ _ _ HA Hx) as (ar'' & y & HA' & Hy & Eb & Ebs & Ep).
      exists ar'', y. rewrite Eb, Ebs. repeat split; auto. lia. }
    constructor; cbn [sbytes snodes svals sstrs sallocs sbsize snext scache fst snd] in *; auto.
    + constructor; cbn [sbytes snodes svals sstrs sallocs sbsize snext scache fst snd].
      * intros b Hb. destruct (w_next s W b Hb) as [K1 K2]. split; auto.
        rewrite updN_neq; auto. intros ->. congruence.
      * apply (w_zero s W).
      * intros A' ar'' HA. destruct (N.eq_dec A' A) as [->|D].
        -- rewrite updN_eq in HA. injection HA as <-. split; auto. subst ar. split; auto.
        -- rewrite updN_neq in HA by auto. apply (w_ar s W _ _ HA).
      * intros A' ar'' y HA Hy. destruct (Hback _ _ _ HA Hy) as (ar' & x & HA' & Hx & Eb & Ebs & Es & Ep).
        destruct (w_chunk s W _ _ _ HA' Hx) as (K1 & K2 & K3). rewrite Eb, Ebs, Es. split; auto. split; auto.
        intros o Ho. apply K3. lia.
      * intros A1 A2 ar1 ar2 c1 c2 HA1 HA2 Hc1 Hc2 E.
        destruct (Hback _ _ _ HA1 Hc1) as (ar1' & x1 & HA1' & Hx1 & Eb1 & _).
        destruct (Hback _ _ _ HA2 Hc2) as (ar2' & x2 & HA2' & Hx2 & Eb2 & _).
        apply (w_own s W _ _ _ _ _ _ HA1' HA2' Hx1 Hx2). congruence.
      * apply (w_dead s W).
      * apply (w_bytes s W).
      * apply (w_static s W).
      * pose proof (w_cache s W) as K. destruct (scache s) as [| |p]; auto.
        destruct (sstrs s p) as [z|]; auto. destruct K as (K1 & K2 & K3). repeat split; auto.
        -- destruct (Hinr _ _ _ K1) as (? & ? & ?). eexists _, _. eauto.
        -- destruct (Hinr _ _ _ K2) as (? & ? & ?). eexists _, _. eauto.
    + exists (c' :: r), c'. cbn [sallocs]. rewrite updN_eq. repeat split; auto. left; auto.
      * simpl. lia.
      * simpl. lia.
    + intros o Ho. right. exists A, ar, c. auto.
    + intros A' b m Hb. split.
      * destruct (Hinr _ _ _ Hb) as (? & ? & ?). eexists _, _. eauto.
      * intros _ _. destruct Hb as (ar' & x & HA & Hx & E1 & E2 & E3).
        destruct (N.eq_dec (ckBlk x) (ckBlk c)) as [Eb|Eb]; [|left; congruence].
        right. left. assert (A' = A) by (eapply (w_own s W); eauto). subst A'.
        rewrite Ha in HA. injection HA as <-.
        assert (x = c).
        { subst ar. destruct Hx as [|Hx]; auto. exfalso. simpl in Hnd. inversion Hnd as [|? ? Hni _].
          apply Hni. rewrite <- Eb. now apply in_map. }
        subst x. lia.
    + intros A' ar'' y HA Hy. right.
      destruct (Hback _ _ _ HA Hy) as (ar' & x & HA' & Hx & Eb & Ebs & _ & Ep). exists ar', x. auto.
    + lia.
    + unfold usedA. cbn [sallocs]. rewrite updN_eq, Ha. exact Hused.
    + intros A' D. now rewrite updN_neq.
    + intro E0. rewrite updN_eq. rewrite (Hz E0). symmetry. exact Ha.
    + unfold alive. cbn [sallocs]. rewrite updN_eq. discriminate.
  - (* in a new block *)
    rewrite updN_eq. cbv iota.
    replace (24 + sz <? 24 + n) with false by (symmetry; bools; lia).
    set (c' := mkChunk (snext s) 24 sz n) in *.
    destruct (w_next s W (snext s) ltac:(lia)) as [Hdead Hdead2].
    assert (HA0 : A <> snext s) by (intros ->; congruence).
    assert (Hblk : forall A' ar' x, sallocs s A' = Some ar' -> In x ar' -> ckBlk x <> snext s).
    { intros A' ar' x HA Hx E. destruct (w_chunk s W _ _ _ HA Hx) as (K & _). congruence. }
    eexists _, _. split; [reflexivity|].
    assert (Hold : forall A' ar' x, sallocs s A' = Some ar' -> In x ar' ->
      exists ar'', updN (sallocs s) A (Some (c' :: ar)) A' = Some ar'' /\ In x ar'').
    { intros A' ar' x HA Hx. destruct (N.eq_dec A' A) as [->|D].
      - exists (c' :: ar). rewrite updN_eq. split; auto. right. congruence.
      - exists ar'. rewrite updN_neq by auto. auto. }
    assert (Hback : forall A' ar'' y, updN (sallocs s) A (Some (c' :: ar)) A' = Some ar'' -> In y ar'' ->
      (A' = A /\ y = c') \/ exists ar', sallocs s A' = Some ar' /\ In y ar').
    { intros A' ar'' y HA Hy. destruct (N.eq_dec A' A) as [->|D].
      - rewrite updN_eq in HA. injection HA as <-. destruct Hy as [<-|Hy]; eauto.
      - rewrite updN_neq in HA by auto. right. eauto. }
    assert (Hinr : forall A' b m, inrA s A' b m -> exists ar'' y,
      updN (sallocs s) A (Some (c' :: ar)) A' = Some ar'' /\ In y ar'' /\ fst b = ckBlk y /\
      ckBase y <= snd b /\ snd b + m <= ckBase y + ckPos y).
    { intros A' b m (ar' & x & HA & Hx & E1 & E2 & E3).
      destruct (Hold _ _ _ HA Hx) as (ar'' & HA' & Hy). exists ar'', x. auto. }
    constructor; cbn [sbytes snodes svals sstrs sallocs sbsize snext scache fst snd] in *; auto.
    + constructor; cbn [sbytes snodes svals sstrs sallocs sbsize snext scache fst snd].
      * intros b Hb. destruct (w_next s W b ltac:(lia)) as [K1 K2]. split.
        -- rewrite updN_neq by lia. auto.
        -- rewrite updN_neq; auto. intros ->. congruence.
      * lia.
      * intros A' ar'' HA. destruct (N.eq_dec A' A) as [->|D].
        -- rewrite updN_eq in HA. injection HA as <-. split; auto. split.
           ++ simpl. constructor; auto. intro I. apply in_map_iff in I as (x & E & Hx).
              now apply (Hblk _ _ _ Ha Hx).
           ++ destruct Hroot as (l & El). exists (snext s :: l). simpl. now rewrite El.
        -- rewrite updN_neq in HA by auto. apply (w_ar s W _ _ HA).
      * intros A' ar'' y HA Hy. destruct (Hback _ _ _ HA Hy) as [[-> ->]|(ar' & HA' & Hx)].
        -- simpl. rewrite updN_eq. split; auto. split; [pose proof (w_zero s W); lia|].
           intros o _. apply (w_dead s W). exact Hdead.
        -- destruct (w_chunk s W _ _ _ HA' Hx) as (K1 & K2 & K3).
           rewrite updN_neq by eauto. auto.
      * intros A1 A2 ar1 ar2 c1 c2 HA1 HA2 Hc1 Hc2 E.
        destruct (Hback _ _ _ HA1 Hc1) as [[-> ->]|(ar1' & HA1' & Hx1)];
          destruct (Hback _ _ _ HA2 Hc2) as [[-> ->]|(ar2' & HA2' & Hx2)]; auto.
        -- exfalso. apply (Hblk _ _ _ HA2' Hx2). simpl in E. congruence.
        -- exfalso. apply (Hblk _ _ _ HA1' Hx1). simpl in E. congruence.
        -- apply (w_own s W _ _ _ _ _ _ HA1' HA2' Hx1 Hx2 E).
      * intros a Ha0. apply (w_dead s W). destruct (N.eq_dec (fst a) (snext s)) as [E|E].
        -- rewrite E. exact Hdead.
        -- rewrite updN_neq in Ha0 by auto. exact Ha0.
      * intros a x Hx. destruct (w_bytes s W _ _ Hx) as (m & Hm & L). exists m. split; auto.
        rewrite updN_neq; auto. intros E. congruence.
      * apply (w_static s W).
      * pose proof (w_cache s W) as K. destruct (scache s) as [| |p]; auto.
        destruct (sstrs s p) as [z|]; auto. destruct K as (K1 & K2 & K3). repeat split; auto.
        -- destruct (Hinr _ _ _ K1) as (? & ? & ?). eexists _, _. eauto.
        -- destruct (Hinr _ _ _ K2) as (? & ? & ?). eexists _, _. eauto.
    + exists (c' :: ar), c'. cbn [sallocs]. rewrite updN_eq. repeat split; auto. left; auto.
      * simpl. lia.
      * simpl. lia.
    + intros o _. left. simpl. lia.
    + intros A' b m Hb. split.
      * destruct (Hinr _ _ _ Hb) as (? & ? & ?). eexists _, _. eauto.
      * intros _ _. left. destruct Hb as (ar' & x & HA & Hx & E1 & _). rewrite E1. eauto.
    + intros b m Hb. rewrite updN_neq; auto. intros ->. congruence.
    + intros A' ar'' y HA Hy.
      destruct (Hback _ _ _ HA Hy) as [[-> ->]|(ar' & HA' & Hx)].
      * left. simpl. lia.
      * right. exists ar', y. repeat split; auto. lia.
    + lia.
    + unfold usedA. cbn [sallocs]. rewrite updN_eq, Ha. exact Hused.
    + intros A' D. now rewrite updN_neq.
    + lia.
    + unfold alive. cbn [sallocs]. rewrite updN_eq. discriminate.
Qed.

(** ** Writing into allocated memory keeps the invariant *)
Lemma inrA_nothing s A a n o : wfst s -> inrA s A a n ->
  forall A' ar c, sallocs s A' = Some ar -> In c ar -> ckBlk c = fst a -> ckBase c + ckPos c <= o ->
  snd a + n <= o.
Proof.
  intros W (ar & x & HA & Hx & E1 & E2 & E3) A' ar' c HA' Hc E Ho.
  assert (A' = A) by (eapply (w_own s W); eauto; congruence). subst A'.
  assert (x = c).
  { rewrite HA in HA'. injection HA' as <-. destruct (w_ar s W _ _ HA) as (_ & Hnd & _).
    assert (EQ : ckBlk x = ckBlk c) by congruence. revert Hx Hc EQ Hnd. clear.
    induction ar as [|y ar IH]; simpl; [tauto|]. intros Hx Hc EQ Hnd. inversion Hnd as [|? ? Hni Hnd']. subst.
    destruct Hx as [->|Hx], Hc as [->|Hc]; auto.
    - exfalso. apply Hni. rewrite EQ. now apply in_map.
    - exfalso. apply Hni. rewrite <- EQ. now apply in_map. }
  subst x. lia.
Qed.

Lemma inrA_beyond s A a n i : wfst s -> inrA s A a n -> i < n -> ~ beyond s (offset a i).
Proof.
  intros W H L [B|(A' & ar & c & HA & Hc & E & B)].
  - simpl in B. pose proof (ownblk_lt _ _ W (inrA_own _ _ _ _ H)). lia.
  - simpl in E, B. pose proof (inrA_nothing s A a n _ W H _ _ _ HA Hc E B). lia.
Qed.

Definition writable (s : st) (a : addr) : Prop := exists A, inrA s A a 1.

Lemma wfst_write s s' :
  wfst s -> sallocs s' = sallocs s -> sbsize s' = sbsize s -> snext s' = snext s ->
  (forall a, nothing s a -> ~ writable s a -> nothing s' a) ->
  (forall a x, sbytes s' a = Some x -> sbytes s a <> None \/ writable s a) ->
  (forall o, sbytes s' (0, o) = sbytes s (0, o)) ->
  (match scache s' with
   | Undef => False
   | Null => True
   | At p => match sstrs s' p with
             | None => True
             | Some z => inrA s (zA z) p sizeof_string /\ inrA s (zA z) (zData z) (zSize z) /\ 0 < zSize z
             end
   end) ->
  wfst s'.
Proof.
  intros W E1 E2 E3 Hn Hb Hz Hc.
  assert (Hin : forall A a n, inrA s A a n <-> inrA s' A a n).
  { intros. unfold inrA. now rewrite E1. }
  assert (Hdead : forall a, sbsize s (fst a) = None -> nothing s' a).
  { intros a H. apply Hn; [now apply (w_dead s W)|].
    intros (A & K). destruct (inrA_size _ _ _ _ W K) as (m & E & _). congruence. }
  constructor; rewrite ?E1, ?E2, ?E3.
  - apply (w_next s W).
  - apply (w_zero s W).
  - apply (w_ar s W).
  - intros A ar c HA Hc'. destruct (w_chunk s W _ _ _ HA Hc') as (K1 & K2 & K3).
    split; auto. split; auto. intros o Ho. apply Hn; [now apply K3|].
    intros (A' & K). pose proof (inrA_nothing s A' _ 1 o W K _ _ _ HA Hc' eq_refl Ho) as L. simpl in L. lia.
  - apply (w_own s W).
  - auto.
  - intros a x Hx. destruct (Hb _ _ Hx) as [H|(A & K)].
    + destruct (sbytes s a) as [y|] eqn:Ey; [|congruence]. eapply (w_bytes s W); eauto.
    + destruct (inrA_size _ _ _ _ W K) as (m & E & L). exists m. split; auto. lia.
  - intro o. rewrite Hz. apply (w_static s W).
  - destruct (scache s') as [| |p]; auto. destruct (sstrs s' p) as [z|]; auto.
    now rewrite <- !Hin.
Qed.

Lemma wfst_putNode s a n : wfst s -> snodes s a <> None \/ writable s a ->
  wfst (set_nodes (upd (snodes s) a n) s).
Proof.
  intros W H. apply (wfst_write s); simpl; auto.
  - intros b (H1 & H2 & H3 & H4) Hw. repeat split; simpl; auto.
    destruct (addr_dec b a) as [->|D]; [|now rewrite upd_neq]. destruct H; congruence || tauto.
  - intros b x Hx. left. congruence.
  - apply (w_cache s W).
Qed.
Lemma wfst_putVal s a n : wfst s -> svals s a <> None \/ writable s a ->
  wfst (set_vals (upd (svals s) a n) s).
Proof.
  intros W H. apply (wfst_write s); simpl; auto.
  - intros b (H1 & H2 & H3 & H4) Hw. repeat split; simpl; auto.
    destruct (addr_dec b a) as [->|D]; [|now rewrite upd_neq]. destruct H; congruence || tauto.
  - intros b x Hx. left. congruence.
  - apply (w_cache s W).
Qed.
Lemma wfst_putZ s p z : wfst s -> sstrs s p <> None \/ writable s p ->
  (scache s = At p -> inrA s (zA z) p sizeof_string /\ inrA s (zA z) (zData z) (zSize z) /\ 0 < zSize z) ->
  wfst (set_strs (upd (sstrs s) p z) s).
Proof.
  intros W H Hc. apply (wfst_write s); simpl; auto.
  - intros b (H1 & H2 & H3 & H4) Hw. repeat split; simpl; auto.
    destruct (addr_dec b p) as [->|D]; [|now rewrite upd_neq]. destruct H; congruence || tauto.
  - intros b x Hx. left. congruence.
  - pose proof (w_cache s W) as K. destruct (scache s) as [| |q]; auto.
    destruct (addr_dec q p) as [->|D].
    + rewrite upd_eq. auto.
    + now rewrite upd_neq.
Qed.
Lemma wfst_store s a bs A : wfst s -> inrA s A a (N.of_nat (length bs)) ->
  wfst (set_bytes (upd_bytes (sbytes s) a bs) s).
Proof.
  intros W H. apply (wfst_write s); simpl; auto.
  - intros b (H1 & H2 & H3 & H4) Hw. repeat split; simpl; auto.
    destruct (upd_bytes_cases (sbytes s) a bs b) as [(i & Hi & -> & _)|[_ ->]]; auto.
    exfalso. apply Hw. exists A. eapply inrA_shift; eauto. lia.
  - intros b x Hx. destruct (upd_bytes_cases (sbytes s) a bs b) as [(i & Hi & -> & _)|[_ E]].
    + right. exists A. eapply inrA_shift; eauto. lia.
    + left. congruence.
  - intro o. apply upd_bytes_out. simpl. intros [E _]. now apply (inrA_not0 _ _ _ _ W H).
  - apply (w_cache s W).
Qed.

(** ** The extension relation.  [Dn], [Dv]: addresses of nodes / values that may
    have been changed; [c]: bytes that may have been requested per allocator. *)
Record ext (Dn Dv : addr -> Prop) (c : N -> N) (s s' : st) : Prop := {
  x_wf0 : wfst s;
  x_wf : wfst s';
  x_inr : forall A a n, inrA s A a n -> inrA s' A a n;
  x_size : forall b n, sbsize s b = Some n -> sbsize s' b = Some n;
  x_alive : forall A, alive s A -> alive s' A;
  x_chunks : chunks_from s s';
  x_next : snext s <= snext s';
  x_used : forall A, usedA s' A <= usedA s A + c A;
  x_other : forall A, c A = 0 -> alive s A -> sallocs s' A = sallocs s A;
  x_nodes : forall a n, snodes s a = Some n -> ~ Dn a -> snodes s' a = Some n;
  x_vals : forall a v, svals s a = Some v -> ~ Dv a -> svals s' a = Some v;
  x_bytes : forall a x, sbytes s a = Some x -> ~ cacheR s a -> sbytes s' a = Some x;
  x_strs : forall p z, sstrs s p = Some z -> scache s <> At p -> sstrs s' p = Some z;
  x_cache : scache s' = scache s \/ (scache s = Null /\ exists p A, scache s' = At p /\ sstrs s p = None /\ c A <> 0 /\ inrA s' A p sizeof_string /\
      sstrs s' p <> None);
  x_cacheR : forall a, cacheR s' a -> cacheR s a \/ sbytes s a = None;
  x_live : forall p, sstrs s p <> None -> sstrs s' p <> None
}.

Definition none : addr -> Prop := fun _ => False.
Definition only (a : addr) : addr -> Prop := fun b => b = a.
Definition zeroc : N -> N := fun _ => 0.
Definition at_ (A n : N) : N -> N := fun A' => if A' =? A then n else 0.
Definition addc (c c' : N -> N) : N -> N := fun A => c A + c' A.
Lemma at_eq A n : at_ A n A = n. Proof. unfold at_. now rewrite N.eqb_refl. Qed.
Lemma at_neq A n A' : A' <> A -> at_ A n A' = 0.
Proof. unfold at_. destruct (N.eqb_spec A' A); congruence. Qed.

Lemma chunks_refl s : chunks_from s s.
Proof. intros A ar c H1 H2. right. exists ar, c. repeat split; auto. lia. Qed.
Lemma beyond_back s s' a : snext s <= snext s' -> chunks_from s s' -> beyond s' a -> beyond s a.
Proof.
  intros Hn Hc [H|(A & ar & c & HA & Hi & E & L)]; [left; lia|].
  destruct (Hc A ar c HA Hi) as [H|(ar0 & c0 & HA0 & Hc0 & E1 & E2 & E3)].
  - left. congruence.
  - right. exists A, ar0, c0. repeat split; auto; [congruence|]. rewrite E2. lia.
Qed.
Lemma beyond_ext Dn Dv c s s' a : ext Dn Dv c s s' -> beyond s' a -> beyond s a.
Proof. intro X. apply beyond_back; apply X. Qed.
Lemma beyond_nothing s a : wfst s -> beyond s a -> nothing s a.
Proof.
  intros W [H|(A & ar & c & HA & Hi & E & L)].
  - apply (w_dead s W). now apply (w_next s W).
  - destruct (w_chunk s W _ _ _ HA Hi) as (_ & _ & K). destruct a as [b o]. simpl in *. subst b. auto.
Qed.
Lemma ext_refl Dn Dv s : wfst s -> ext Dn Dv zeroc s s.
Proof. intro W. constructor; auto using chunks_refl; lia. Qed.

Lemma ext_weaken Dn Dv c (Dn' Dv' : addr -> Prop) c' s s' : ext Dn Dv c s s' ->
  (forall a, Dn a -> Dn' a) -> (forall a, Dv a -> Dv' a) -> (forall A, c A <= c' A) -> ext Dn' Dv' c' s s'.
Proof.
  intros X H1 H2 H3. destruct X. constructor; auto.
  - intro A. specialize (x_used0 A). specialize (H3 A). lia.
  - intros A H. apply x_other0. specialize (H3 A). lia.
  - destruct x_cache0 as [E|(E & p & A & K1 & K2 & K3 & K4)]; auto. right. split; auto. exists p, A.
    split; auto. split; auto. split; auto. specialize (H3 A). lia.
Qed.

Lemma ext_trans Dn Dv c1 c2 s s1 s2 : ext Dn Dv c1 s s1 -> ext Dn Dv c2 s1 s2 ->
  ext Dn Dv (addc c1 c2) s s2.
Proof.
  intros X Y. constructor.
  - apply X.
  - apply Y.
  - intros. now apply (x_inr _ _ _ _ _ Y), (x_inr _ _ _ _ _ X).
  - intros. now apply (x_size _ _ _ _ _ Y), (x_size _ _ _ _ _ X).
  - intros. now apply (x_alive _ _ _ _ _ Y), (x_alive _ _ _ _ _ X).
  - intros A ar c HA Hc. destruct (x_chunks _ _ _ _ _ Y A ar c HA Hc) as [H|(ar1 & k1 & HA1 & Hc1 & E1 & E2 & E3)].
    + left. pose proof (x_next _ _ _ _ _ X). lia.
    + destruct (x_chunks _ _ _ _ _ X A ar1 k1 HA1 Hc1) as [H|(ar2 & k2 & HA2 & Hc2 & E4 & E5 & E6)].
      * left. congruence.
      * right. exists ar2, k2. repeat split; auto; [congruence..|lia].
  - pose proof (x_next _ _ _ _ _ X). pose proof (x_next _ _ _ _ _ Y). lia.
  - intro A. pose proof (x_used _ _ _ _ _ X A). pose proof (x_used _ _ _ _ _ Y A). unfold addc. lia.
  - intros A H Ha. unfold addc in H. rewrite (x_other _ _ _ _ _ Y), (x_other _ _ _ _ _ X); auto; try lia.
    now apply (x_alive _ _ _ _ _ X).
  - intros a n H K. apply (x_nodes _ _ _ _ _ Y); auto. now apply (x_nodes _ _ _ _ _ X).
  - intros a n H K. apply (x_vals _ _ _ _ _ Y); auto. now apply (x_vals _ _ _ _ _ X).
  - intros a x H K. apply (x_bytes _ _ _ _ _ Y); [now apply (x_bytes _ _ _ _ _ X)|].
    intro C. apply (x_cacheR _ _ _ _ _ X) in C as [C|C]; congruence || tauto.
  - intros p z H K. apply (x_strs _ _ _ _ _ Y); [now apply (x_strs _ _ _ _ _ X)|].
    destruct (x_cache _ _ _ _ _ X) as [->|(_ & q & A & -> & E & _)]; congruence.
  - destruct (x_cache _ _ _ _ _ Y) as [->|(E & q & A & E' & En & Ec & Ei)].
    + destruct (x_cache _ _ _ _ _ X) as [Ex|(Ex & q & A & E' & En & Ec & Ei)]; auto.
      right. split; auto. exists q, A. split; auto. split; auto. split; [unfold addc; lia|].
      destruct Ei as [Ei Es]. split; [now apply (x_inr _ _ _ _ _ Y)|now apply (x_live _ _ _ _ _ Y)].
    + destruct (x_cache _ _ _ _ _ X) as [Ex|(Ex & q' & A' & Ex' & En')]; [|congruence].
      right. split; [congruence|]. exists q, A. split; auto. split; [|split; auto; unfold addc; lia].
      destruct (sstrs s q) as [z|] eqn:Ez; auto.
      assert (sstrs s1 q = Some z); [|congruence].
      apply (x_strs _ _ _ _ _ X); auto. congruence.
  - intros a H. apply (x_cacheR _ _ _ _ _ Y) in H as [H|H]; [now apply (x_cacheR _ _ _ _ _ X)|].
    destruct (cacheR_dec s a) as [C|C]; [now left|]. right.
    destruct (sbytes s a) as [x|] eqn:Ex; auto.
    rewrite (x_bytes _ _ _ _ _ X a x Ex C) in H. discriminate.
  - intros p H. now apply (x_live _ _ _ _ _ Y), (x_live _ _ _ _ _ X).
Qed.

(** A step after an extension of [s0]. *)
Lemma cacheR_same s s' : scache s' = scache s -> (forall p, scache s = At p -> sstrs s' p = sstrs s p) ->
  forall a, cacheR s' a -> cacheR s a.
Proof.
  intros E1 E2 a (p & z & H1 & H2 & H). exists p, z. rewrite E1 in H1. rewrite E2 in H2; auto.
Qed.

Lemma ext_alloc A n s a s' : wfst s -> alloc_post A n s a s' -> ext none none (at_ A n) s s'.
Proof.
  intros W P. constructor; auto.
  - apply P.
  - intros A' b m H. now apply (ap_old _ _ _ _ _ P).
  - apply P.
  - intros A' H. destruct (N.eq_dec A' A) as [->|D]; [apply P|].
    unfold alive in *. now rewrite (ap_other _ _ _ _ _ P).
  - apply P.
  - apply P.
  - intro A'. destruct (N.eq_dec A' A) as [->|D].
    + rewrite at_eq, (ap_used _ _ _ _ _ P). lia.
    + unfold usedA. rewrite (ap_other _ _ _ _ _ P) by auto. lia.
  - intros A' H _. destruct (N.eq_dec A' A) as [->|D].
    + rewrite at_eq in H. now apply (ap_zero _ _ _ _ _ P).
    + now apply (ap_other _ _ _ _ _ P).
  - intros b m H _. now rewrite (ap_nodes _ _ _ _ _ P).
  - intros b m H _. now rewrite (ap_vals _ _ _ _ _ P).
  - intros b m H _. now rewrite (ap_bytes _ _ _ _ _ P).
  - intros b m H _. now rewrite (ap_strs _ _ _ _ _ P).
  - left. apply P.
  - intros b H. left. revert H. apply cacheR_same; [apply P|]. intros. now rewrite (ap_strs _ _ _ _ _ P).
  - intros p H. now rewrite (ap_strs _ _ _ _ _ P).
Qed.

Lemma ext_alloc_step Dn Dv c A n s0 s a s' : ext Dn Dv c s0 s -> alloc_post A n s a s' ->
  ext Dn Dv (addc c (at_ A n)) s0 s'.
Proof.
  intros X P. eapply ext_trans; eauto. eapply ext_weaken; [eapply ext_alloc; eauto; apply X|..]; auto;
    unfold none; try tauto. intros; lia.
Qed.

Lemma ext_putNode Dn Dv c s0 s a n : ext Dn Dv c s0 s -> snodes s0 a = None \/ Dn a ->
  snodes s a <> None \/ writable s a -> ext Dn Dv c s0 (set_nodes (upd (snodes s) a n) s).
Proof.
  intros X H W. assert (W' := wfst_putNode s a n (x_wf _ _ _ _ _ X) W).
  destruct X. constructor; auto; simpl.
  intros b m Hb K. rewrite upd_neq; auto. intros ->. destruct H; congruence || tauto.
Qed.
Lemma ext_putVal Dn Dv c s0 s a n : ext Dn Dv c s0 s -> svals s0 a = None \/ Dv a ->
  svals s a <> None \/ writable s a -> ext Dn Dv c s0 (set_vals (upd (svals s) a n) s).
Proof.
  intros X H W. assert (W' := wfst_putVal s a n (x_wf _ _ _ _ _ X) W).
  destruct X. constructor; auto; simpl.
  intros b m Hb K. rewrite upd_neq; auto. intros ->. destruct H; congruence || tauto.
Qed.
Lemma ext_putZ Dn Dv c s0 s p z : ext Dn Dv c s0 s -> sstrs s0 p = None -> scache s <> At p ->
  sstrs s p <> None \/ writable s p -> ext Dn Dv c s0 (set_strs (upd (sstrs s) p z) s).
Proof.
  intros X H Hc W. assert (W' := wfst_putZ s p z (x_wf _ _ _ _ _ X) W ltac:(congruence)).
  destruct X. constructor; auto; simpl.
  - intros q y Hq K. rewrite upd_neq; auto. congruence.
  - destruct x_cache0 as [E|(E & q & A & K1 & K2 & K3 & K4 & K5)]; auto. right. split; auto. exists q, A. rewrite upd_neq by congruence. auto.
  - intros a (q & y & H1 & H2 & H3). simpl in *. rewrite upd_neq in H2 by congruence.
    apply x_cacheR0. exists q, y. auto.
  - intros q Hq. destruct (addr_dec q p) as [->|N]; [rewrite upd_eq; discriminate|]. rewrite upd_neq; auto.
Qed.
Lemma ext_store Dn Dv c s0 s a bs A : ext Dn Dv c s0 s -> inrA s A a (N.of_nat (length bs)) ->
  (forall i, (i < length bs)%nat -> sbytes s0 (offset a (N.of_nat i)) = None) ->
  ext Dn Dv c s0 (set_bytes (upd_bytes (sbytes s) a bs) s).
Proof.
  intros X H Hn. assert (W' := wfst_store s a bs A (x_wf _ _ _ _ _ X) H).
  destruct X. constructor; auto; simpl.
  intros b x Hb K. destruct (upd_bytes_cases (sbytes s) a bs b) as [(i & Hi & -> & _)|[_ ->]]; auto.
  rewrite Hn in Hb by auto. discriminate.
Qed.

(** ** Bytes held at an address *)
Definition holds (s : st) (a : addr) (bs : bytes) : Prop :=
  forall i x, nth_error bs i = Some x -> sbytes s (offset a (N.of_nat i)) = Some x.

Lemma holds_nil s a : holds s a [].
Proof. intros i x H. destruct i; discriminate. Qed.
Lemma holds_app s a b c : holds s a (b ++ c) <-> holds s a b /\ holds s (offset a (N.of_nat (length b))) c.
Proof.
  unfold holds. split.
  - intro H. split; intros i x E.
    + apply H. rewrite nth_error_app1; auto. apply nth_error_Some. congruence.
    + rewrite offset_offset, <- Nat2N.inj_add. apply H. rewrite nth_error_app2 by lia.
      now replace (length b + i - length b)%nat with i by lia.
  - intros [H1 H2] i x E. destruct (Nat.lt_ge_cases i (length b)) as [L|L].
    + rewrite nth_error_app1 in E by auto. auto.
    + rewrite nth_error_app2 in E by auto. specialize (H2 _ _ E).
      rewrite offset_offset, <- Nat2N.inj_add in H2. now replace (length b + (i - length b))%nat with i in H2 by lia.
Qed.
Lemma load_from_holds f b o bs :
  (forall i x, nth_error bs i = Some x -> f (b, o + N.of_nat i) = Some x) ->
  load_from f b o (length bs) = Some bs.
Proof.
  revert o. induction bs as [|c bs IH]; intros o H; simpl; auto.
  specialize (H O c eq_refl) as H0. simpl in H0. replace (o + N.of_nat 0) with o in H0 by lia. rewrite H0.
  rewrite IH; auto. intros i x E. specialize (H (S i) x E). now replace (o + 1 + N.of_nat i) with (o + N.of_nat (S i)) by lia.
Qed.
Lemma wp_load a len bs s (Q : bytes -> st -> Prop) : holds s a bs -> len = N.of_nat (length bs) ->
  Q bs s -> wp (load a len) s Q.
Proof.
  intros H -> HQ. unfold load. apply wp_get with bs; auto. rewrite Nat2N.id.
  apply load_from_holds. exact H.
Qed.
Lemma run_holds f b : forall n o bs, (length bs <= n)%nat ->
  (forall i x, nth_error bs i = Some x -> f (b, o + N.of_nat i) = Some x) ->
  exists r, run f b o n = bs ++ r.
Proof.
  intros n o bs. revert n o. induction bs as [|c bs IH]; intros n o Hl H; simpl.
  - eauto.
  - destruct n as [|n]; [simpl in Hl; lia|]. simpl.
    specialize (H O c eq_refl) as H0. replace (o + N.of_nat 0) with o in H0 by lia. rewrite H0.
    destruct (IH n (o + 1)) as [r ->]; [simpl in Hl; lia| |eauto].
    intros i x E. specialize (H (S i) x E). now replace (o + 1 + N.of_nat i) with (o + N.of_nat (S i)) by lia.
Qed.
Lemma holds_text s a bs : wfst s -> holds s a bs -> exists r, text_at s a = bs ++ r.
Proof.
  intros W H. unfold text_at.
  assert (K : bs = [] \/ exists n, sbsize s (fst a) = Some n /\ N.of_nat (length bs) + snd a <= n).
  { destruct bs as [|c bs] using rev_ind; auto. right. clear IHbs.
    specialize (H (length bs) c). rewrite nth_error_app2, Nat.sub_diag in H by lia. specialize (H eq_refl).
    destruct (w_bytes s W _ _ H) as (n & Hn & L). exists n. split; auto. simpl in L.
    rewrite app_length. simpl. lia. }
  destruct K as [->|(n & -> & L)]; [eexists; reflexivity|]. apply run_holds; [lia|exact H].
Qed.
Lemma holds_store s a bs : holds (set_bytes (upd_bytes (sbytes s) a bs) s) a bs.
Proof.
  intros i x E. simpl. rewrite upd_bytes_in; auto. apply nth_error_Some. congruence.
Qed.
Lemma wp_store a cap bs s (Q : unit -> st -> Prop) : N.of_nat (length bs) <= cap ->
  Q tt (set_bytes (upd_bytes (sbytes s) a bs) s) -> wp (store a cap bs) s Q.
Proof.
  intros H HQ. eexists _, _. split; [|exact HQ]. unfold store.
  replace (cap <? N.of_nat (length bs)) with false; auto. symmetry. bools. lia.
Qed.
Lemma wp_putNode a n s (Q : unit -> st -> Prop) : Q tt (set_nodes (upd (snodes s) a n) s) -> wp (putNode a n) s Q.
Proof. intro. eexists _, _. split; [reflexivity|auto]. Qed.
Lemma wp_putVal a n s (Q : unit -> st -> Prop) : Q tt (set_vals (upd (svals s) a n) s) -> wp (putVal a n) s Q.
Proof. intro. eexists _, _. split; [reflexivity|auto]. Qed.
Lemma wp_putZ a n s (Q : unit -> st -> Prop) : Q tt (set_strs (upd (sstrs s) a n) s) -> wp (putZ a n) s Q.
Proof. intro. eexists _, _. split; [reflexivity|auto]. Qed.
Lemma wp_modNode a f n s (Q : unit -> st -> Prop) : snodes s a = Some n ->
  Q tt (set_nodes (upd (snodes s) a (f n)) s) -> wp (modNode a f) s Q.
Proof. intros E H. apply wp_bind, (wp_getNode _ n); auto. now apply wp_putNode. Qed.

(** A text held outside the cache's buffer survives every extension. *)
Definition srctext (s : st) (a : addr) (bs : bytes) : Prop :=
  holds s a bs /\ forall i, (i < length bs)%nat -> ~ cacheR s (offset a (N.of_nat i)).

Lemma srctext_ext Dn Dv c s s' a bs : ext Dn Dv c s s' -> srctext s a bs -> srctext s' a bs.
Proof.
  intros X [H K]. split.
  - intros i x E. apply (x_bytes _ _ _ _ _ X); auto. apply K. apply nth_error_Some. congruence.
  - intros i L C. apply (x_cacheR _ _ _ _ _ X) in C as [C|C]; [now apply (K i)|].
    destruct (nth_error bs i) as [x|] eqn:E.
    + rewrite (H _ _ E) in C. discriminate.
    + apply nth_error_None in E. lia.
Qed.

(** ** Memory documents may not depend on.  [isvol]: blocks of the caller that
    it may overwrite or free, and allocators it may release, while the documents
    of interest live on. *)
Class vols := { isvol : N -> Prop; vol0 : ~ isvol 0 }.
Definition novols : vols.
Proof. exists (fun _ => False). tauto. Defined.

Section Vol.
Context {V : vols}.
Definition vol (s : st) (b : N) : Prop :=
  isvol b \/ exists A ar c, isvol A /\ sallocs s A = Some ar /\ In c ar /\ ckBlk c = b.
Record wfvol (s : st) : Prop := {
  wv_next : forall b, isvol b -> b < snext s;
  wv_own : forall A ar c, sallocs s A = Some ar -> In c ar -> isvol (ckBlk c) -> isvol A
}.
Lemma wfvol_ext Dn Dv c s s' : ext Dn Dv c s s' -> wfvol s -> wfvol s'.
Proof.
  intros X [H1 H2]. constructor.
  - intros b Hb. pose proof (x_next _ _ _ _ _ X). specialize (H1 b Hb). lia.
  - intros A ar k HA Hk Hv. destruct (x_chunks _ _ _ _ _ X A ar k HA Hk) as [L|(ar0 & k0 & K1 & K2 & K3 & _)].
    + specialize (H1 _ Hv). lia.
    + apply (H2 A ar0 k0); auto. congruence.
Qed.
Lemma vol_ext Dn Dv c s s' b : ext Dn Dv c s s' -> b < snext s -> ~ vol s b -> ~ vol s' b.
Proof.
  intros X L H [K|(A & ar & k & HV & HA & Hk & E)].
  - apply H. now left.
  - destruct (x_chunks _ _ _ _ _ X A ar k HA Hk) as [L'|(ar0 & k0 & K1 & K2 & K3 & _)]; [lia|].
    apply H. right. exists A, ar0, k0. repeat split; auto. congruence.
Qed.
Lemma inrA_vol s A a n : wfst s -> wfvol s -> inrA s A a n -> ~ isvol A -> ~ vol s (fst a).
Proof.
  intros W Wv (ar & c & H1 & H2 & H3 & _) NA [K|(A' & ar' & c' & HV & HA & Hc & E)].
  - apply NA. apply (wv_own s Wv A ar c); auto. congruence.
  - apply NA. replace A with A'; auto. apply (w_own s W A' A ar' ar c' c); auto. congruence.
Qed.
Lemma size_next s b n : wfst s -> sbsize s b = Some n -> b < snext s.
Proof.
  intros W H. destruct (N.lt_ge_cases b (snext s)) as [L|L]; auto.
  destruct (w_next s W b L) as [K _]. congruence.
Qed.
Lemma bytes_next s a x : wfst s -> sbytes s a = Some x -> fst a < snext s.
Proof. intros W H. destruct (w_bytes s W _ _ H) as (n & E & _). eapply size_next; eauto. Qed.
Lemma nodes_next s a x : wfst s -> snodes s a = Some x -> fst a < snext s.
Proof.
  intros W H. destruct (sbsize s (fst a)) as [n|] eqn:E; [eapply size_next; eauto|].
  apply (w_dead s W) in E as (_ & E & _). congruence.
Qed.
(** Memory obtained from allocators outside [V] is outside [V]'s. *)
Lemma beyond_vol Dn Dv c s s' a : ext Dn Dv c s s' -> wfvol s -> (forall A, isvol A -> c A = 0) ->
  beyond s a -> ~ nothing s' a -> ~ vol s' (fst a).
Proof.
  intros X Wv Hc B Hn K. apply Hn. pose proof (x_wf _ _ _ _ _ X) as W'.
  assert (Case : snext s <= fst a \/ exists A ar k, isvol A /\ sallocs s A = Some ar /\ In k ar /\ ckBlk k = fst a /\ ckBase k + ckPos k <= snd a).
  { destruct B as [B|(A & ar & k & HA & Hk & E & L)]; auto. right.
    destruct K as [K|(A' & ar' & k' & HV & HA' & Hk' & E')].
    - exists A, ar, k. repeat split; auto. apply (wv_own s Wv A ar k); auto. congruence.
    - assert (Al : alive s A).
      { unfold alive. congruence. }
      destruct (x_chunks _ _ _ _ _ X A' ar' k' HA' Hk') as [L'|(ar0 & k0 & K1 & K2 & K3 & _)].
      + exfalso. destruct (w_chunk s (x_wf0 _ _ _ _ _ X) A ar k HA Hk) as (S1 & _).
        apply (size_next s _ _ (x_wf0 _ _ _ _ _ X)) in S1. lia.
      + replace A with A' in *; [exists A', ar, k; auto|].
        apply (w_own s (x_wf0 _ _ _ _ _ X) A' A ar0 ar k0 k); auto. congruence. }
  destruct Case as [L|(A & ar & k & HV & HA & Hk & E & L)].
  - exfalso. destruct K as [K|(A' & ar' & k' & HV & HA' & Hk' & E')].
    + pose proof (wv_next s Wv _ K). lia.
    + destruct (sallocs s A') as [ar0|] eqn:EA.
      * rewrite (x_other _ _ _ _ _ X A') in HA'; auto; [|unfold alive; congruence].
        destruct (w_chunk s (x_wf0 _ _ _ _ _ X) A' ar' k' HA' Hk') as (S1 & _).
        apply (size_next s _ _ (x_wf0 _ _ _ _ _ X)) in S1. lia.
      * destruct (x_chunks _ _ _ _ _ X A' ar' k' HA' Hk') as [L'|(ar0 & k0 & K1 & _)]; [|congruence].
        destruct (w_ar s' W' A' ar' HA') as (_ & _ & l & El).
        pose proof (wv_next s Wv _ HV) as LA.
        assert (In A' (map ckBlk ar')) as HI by (rewrite El, in_app_iff; simpl; auto).
        apply in_map_iff in HI as (kr & Er & Hr).
        destruct (x_chunks _ _ _ _ _ X A' ar' kr HA' Hr) as [L2|(ar0 & k0 & K1 & _)]; [lia|congruence].
  - assert (Ek : sallocs s' A = Some ar).
    { rewrite (x_other _ _ _ _ _ X A); auto. unfold alive. congruence. }
    destruct (w_chunk s' W' A ar k Ek Hk) as (_ & _ & Z). specialize (Z (snd a) L). rewrite E in Z.
    now destruct a.
Qed.

(** A text a document may refer to. *)
Definition safetext (s : st) (a : addr) (bs : bytes) : Prop :=
  holds s a bs /\ forall i, (i < length bs)%nat -> ~ cacheR s (offset a (N.of_nat i)) /\ ~ vol s (fst a).

Lemma safetext_src s a bs : safetext s a bs -> srctext s a bs.
Proof. intros [H K]. split; auto. intros i L. now apply K. Qed.
Lemma src_safetext s a bs : srctext s a bs -> ~ vol s (fst a) -> safetext s a bs.
Proof. intros [H K] N. split; auto. Qed.
Lemma safetext_ext Dn Dv c s s' a bs : ext Dn Dv c s s' -> safetext s a bs -> safetext s' a bs.
Proof.
  intros X [H K]. assert (S : srctext s' a bs) by (eapply srctext_ext; eauto; now apply safetext_src).
  destruct S as [S1 S2]. split; auto. intros i L. split; auto.
  destruct (nth_error bs i) as [x|] eqn:E; [|apply nth_error_None in E; lia].
  apply (vol_ext _ _ _ _ _ _ X); [|now apply (K i)].
  exact (bytes_next s _ x (x_wf0 _ _ _ _ _ X) (H _ _ E)).
Qed.
Lemma safetext_nil s a : safetext s a [].
Proof. split; [apply holds_nil|]. simpl. lia. Qed.
Lemma safetext_app s a b c : safetext s a (b ++ c) <->
  safetext s a b /\ safetext s (offset a (N.of_nat (length b))) c.
Proof.
  unfold safetext. rewrite holds_app. split.
  - intros [[H1 H2] H]. split; split; auto; intros i L.
    + apply H. rewrite app_length. lia.
    + rewrite offset_offset, <- Nat2N.inj_add. apply H. rewrite app_length. lia.
  - intros [[H1 K1] [H2 K2]]. split; auto. intros i L. rewrite app_length in L.
    destruct (Nat.lt_ge_cases i (length b)); auto.
    specialize (K2 (i - length b)%nat ltac:(lia)). rewrite offset_offset, <- Nat2N.inj_add in K2.
    now replace (length b + (i - length b))%nat with i in K2 by lia.
Qed.

Lemma zero_vol s : wfst s -> ~ vol s 0.
Proof.
  intros W [K|(A & ar & c & _ & HA & Hc & E)]; [now apply vol0|].
  destruct (w_chunk s W _ _ _ HA Hc) as (_ & K & _). congruence.
Qed.
(** Static texts *)
Lemma cacheR_not0 s o : wfst s -> ~ cacheR s (0, o).
Proof.
  intros W (p & z & E1 & E2 & E3 & _). pose proof (w_cache s W) as K. rewrite E1, E2 in K.
  destruct K as (_ & K & _). apply (inrA_not0 _ _ _ _ W) in K. simpl in E3. congruence.
Qed.
Lemma static_safe s n k : wfst s ->
  safetext s (0, N.of_nat n) (firstn k (skipn n static_text)).
Proof.
  intro W. split.
  - intros i x E. unfold offset. simpl fst. simpl snd. rewrite (w_static s W).
    replace (N.to_nat (N.of_nat n + N.of_nat i)) with (n + i)%nat by lia.
    assert (L : (i < k)%nat).
    { assert (i < length (firstn k (skipn n static_text)))%nat by (apply nth_error_Some; congruence).
      rewrite firstn_length in H. lia. }
    revert E. generalize static_text as l. intro l. revert l i k L. induction n as [|n IH]; intros l i k L E.
    + simpl in *. revert l k L E. induction i as [|i IHi]; intros l k L E; destruct l; destruct k; simpl in *; try discriminate; try lia; auto.
      apply (IHi l k); auto. lia.
    + destruct l; simpl in *; [destruct k, i; discriminate|]. eauto.
  - intros i _. split; [|now apply zero_vol]. intro C. now apply (cacheR_not0 s (N.of_nat n + N.of_nat i)).
Qed.
Lemma strNull_safe s : wfst s -> safetext s zj_strNull (txt "null").
Proof. intro W. exact (static_safe s 11 4 W). Qed.
Lemma strTrue_safe s : wfst s -> safetext s zj_strTrue (txt "true").
Proof. intro W. exact (static_safe s 0 4 W). Qed.
Lemma strFalse_safe s : wfst s -> safetext s zj_strFalse (txt "false").
Proof. intro W. exact (static_safe s 5 5 W). Qed.

End Vol.

(** What was written and put back. *)
Lemma ext_clean Dn Dv (Dn' Dv' : addr -> Prop) c s s' : ext Dn Dv c s s' ->
  (forall a n, snodes s a = Some n -> Dn a -> ~ Dn' a -> snodes s' a = Some n) ->
  (forall a x, svals s a = Some x -> Dv a -> ~ Dv' a -> svals s' a = Some x) ->
  (forall a, {Dn a} + {~ Dn a}) -> (forall a, {Dv a} + {~ Dv a}) -> ext Dn' Dv' c s s'.
Proof.
  intros [] H1 H2 D1 D2. constructor; auto.
  - intros a n Ha Hn. destruct (D1 a); auto.
  - intros a n Ha Hn. destruct (D2 a); auto.
Qed.
