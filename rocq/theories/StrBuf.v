(** The string builder zj_string: a builder holds the concatenation of what was
    appended, and costs at most four bytes per byte appended. *)
From Verif Require Import Base Spec Lex LexProofs Alloc AllocProofs Mem MemProofs Api PureParse Dom Steps.

(** Bytes that may be written after [s0]: new ones and those of the cache. *)
Definition wr (s0 : st) (a : addr) : Prop := sbytes s0 a = None \/ cacheR s0 a.

Lemma ext_store_wr Dn Dv c s0 s a bs A : ext Dn Dv c s0 s -> inrA s A a (lenN bs) ->
  (forall i, (i < length bs)%nat -> wr s0 (offset a (N.of_nat i))) ->
  ext Dn Dv c s0 (set_bytes (upd_bytes (sbytes s) a bs) s).
Proof.
  intros X H Hn. assert (W' := wfst_store s a bs A (x_wf _ _ _ _ _ X) H).
  destruct X. constructor; auto; simpl.
  intros b x Hb K. destruct (upd_bytes_cases (sbytes s) a bs b) as [(i & Hi & -> & _)|[_ ->]]; auto.
  destruct (Hn i Hi); congruence || tauto.
Qed.
Lemma ext_putZ_wr Dn Dv c s0 s p z : ext Dn Dv c s0 s -> sstrs s0 p = None \/ scache s0 = At p ->
  (scache s = At p -> inrA s (zA z) p sizeof_string /\ inrA s (zA z) (zData z) (zSize z) /\ 0 < zSize z /\
     forall i, i < zSize z -> wr s0 (offset (zData z) i)) ->
  sstrs s p <> None \/ writable s p -> ext Dn Dv c s0 (set_strs (upd (sstrs s) p z) s).
Proof.
  intros X H Hc W.
  assert (W' : wfst (set_strs (upd (sstrs s) p z) s)).
  { apply wfst_putZ; auto; [apply X|]. intro E. destruct (Hc E) as (H1 & H2 & H3 & _). auto. }
  assert (XC := x_cacheR _ _ _ _ _ X). assert (Xc := x_cache _ _ _ _ _ X). destruct X. constructor; auto; simpl.
  - intros q y Hq K. rewrite upd_neq; auto. intros ->. destruct H; congruence.
  - destruct Xc as [E|(E & q & A & K1 & K2 & K3 & K4 & K5)]; auto. right. split; auto. exists q, A.
    split; auto. split; auto. split; auto. split; auto. destruct (addr_dec q p) as [->|N]; [rewrite upd_eq; discriminate|]. rewrite upd_neq; auto.
  - intros a (q & y & H1 & H2 & H3 & H4). simpl in *. destruct (addr_dec q p) as [->|D].
    + rewrite upd_eq in H2. injection H2 as <-. destruct (Hc H1) as (_ & _ & _ & K).
      specialize (K (snd a - snd (zData z)) ltac:(lia)).
      replace (offset (zData z) (snd a - snd (zData z))) with a in K.
      * destruct K; auto.
      * unfold offset. destruct a, (zData z); simpl in *. f_equal; lia.
    + rewrite upd_neq in H2 by auto. apply XC. exists q, y. auto.
  - intros q Hq. destruct (addr_dec q p) as [->|N]; [rewrite upd_eq; discriminate|]. rewrite upd_neq; auto.
Qed.

Record same (s s' : st) : Prop := {
  sm_nodes : snodes s' = snodes s;
  sm_vals : svals s' = svals s;
  sm_cache : scache s' = scache s
}.
Lemma same_refl s : same s s. Proof. constructor; auto. Qed.
Lemma same_trans s s1 s2 : same s s1 -> same s1 s2 -> same s s2.
Proof. intros [] []. constructor; congruence. Qed.

(** A builder at [p]: started with [I0] bytes of room when [K0] bytes had been
    requested since [s0]; it holds [out]. *)
Record sb (Dn Dv : addr -> Prop) (A I0 K0 : N) (s0 s : st) (p d : addr) (size : N) (out : bytes) : Prop := {
  sb_ext : ext Dn Dv (at_ A (K0 + 2 * (size - I0))) s0 s;
  sb_z : sstrs s p = Some (mkStr d (lenN out) size A);
  sb_p0 : sstrs s0 p = None \/ scache s0 = At p;
  sb_p : inrA s A p sizeof_string;
  sb_d : inrA s A d size;
  sb_w : forall i, i < size -> wr s0 (offset d i);
  sb_c : scache s <> At p -> forall i, i < size -> ~ cacheR s (offset d i);
  sb_h : holds s d out;
  sb_len : lenN out <= size;
  sb_min : I0 <= size;
  sb_pos : 0 < I0;
  sb_max : size <= N.max I0 (2 * lenN out)
}.
Definition sbx Dn Dv A I0 K0 s0 s p out : Prop := exists d size, sb Dn Dv A I0 K0 s0 s p d size out.

Lemma lenN_app {A} (a b : list A) : lenN (a ++ b) = lenN a + lenN b.
Proof. unfold lenN. rewrite app_length. lia. Qed.

Lemma beyond_wr s0 a : wfst s0 -> beyond s0 a -> wr s0 a.
Proof. intros W B. left. now apply beyond_nothing. Qed.

Lemma holds_same_bytes s s' a b : sbytes s' = sbytes s -> holds s a b -> holds s' a b.
Proof. intros E H i x Hx. rewrite E. auto. Qed.

(** Storing at the end of the contents. *)
Lemma sb_put Dn Dv A I0 K0 s0 s p d size out bs z0 l : l = lenN out + lenN bs ->
  ext Dn Dv (at_ A (K0 + 2 * (size - I0))) s0 s -> sstrs s p = Some z0 ->
  sstrs s0 p = None \/ scache s0 = At p -> inrA s A p sizeof_string -> inrA s A d size ->
  (forall i, i < size -> wr s0 (offset d i)) -> (scache s <> At p -> forall i, i < size -> ~ cacheR s (offset d i)) -> holds s d out ->
  lenN out + lenN bs <= size -> I0 <= size -> 0 < I0 -> size <= N.max I0 (2 * (lenN out + lenN bs)) ->
  wp (store (offset d (lenN out)) (size - lenN out) bs ;;;
      putZ p (mkStr d l size A)) s
     (fun _ s' => sb Dn Dv A I0 K0 s0 s' p d size (out ++ bs) /\ same s s').
Proof.
  intros El X Hz Hp0 Hp Hd Hw Hc Hh Hl Hm Hpos Hmx. rewrite <- lenN_app in El. subst l. apply wp_bind, wp_store; [unfold lenN in *; lia|].
  set (s1 := set_bytes _ s).
  assert (X1 : ext Dn Dv (at_ A (K0 + 2 * (size - I0))) s0 s1).
  { apply ext_store_wr with A; auto.
    - eapply inrA_shift; eauto.
    - intros i Hi. rewrite offset_offset. apply Hw. unfold lenN in *. lia. }
  apply wp_putZ.
  assert (I1 : forall a n, inrA s A a n -> inrA s1 A a n) by (intros a n H; exact H).
  split; [|constructor; auto].
  assert (X2 : ext Dn Dv (at_ A (K0 + 2 * (size - I0))) s0 (set_strs (upd (sstrs s1) p (mkStr d (lenN (out ++ bs)) size A)) s1)).
  { apply ext_putZ_wr; auto.
    - simpl. intros _. repeat split; auto. lia.
    - left. change (sstrs s1 p) with (sstrs s p). congruence. }
  constructor; auto.
  - simpl. apply upd_eq.
  - simpl. intros Nc i Hi (q & z & E1 & E2 & E3). simpl in *. apply (Hc Nc i Hi). exists q, z. rewrite upd_neq in E2 by congruence. auto.
  - apply holds_app. split.
    + intros i x Hx. simpl. rewrite upd_bytes_out; auto. unfold offset. simpl.
      assert (i < length out)%nat by (apply nth_error_Some; congruence). unfold lenN. lia.
    + intros i x Hx. simpl. fold (lenN out). rewrite upd_bytes_in; auto. apply nth_error_Some. congruence.
  - rewrite lenN_app. lia.
  - rewrite lenN_app. lia.
Qed.

(** Moving to a larger buffer. *)
Lemma sb_grow Dn Dv A I0 K0 s0 s p d size out size' : wfst s0 -> alive s0 A ->
  sb Dn Dv A I0 K0 s0 s p d size out -> 2 * size <= size' -> usedA s0 A + K0 + 2 * (size' - I0) <= two30 ->
  wp (old <- load d (lenN out) ;; d' <- zj_allocatorAlloc A size' ;; store d' size' old ;;;
      ret (mkStr d' (lenN out) size' A)) s
     (fun z s' => same s s' /\ exists d', z = mkStr d' (lenN out) size' A /\
        ext Dn Dv (at_ A (K0 + 2 * (size' - I0))) s0 s' /\ sstrs s' p = Some (mkStr d (lenN out) size A) /\
        inrA s' A p sizeof_string /\ inrA s' A d' size' /\ (forall i, i < size' -> wr s0 (offset d' i)) /\
        (scache s' <> At p -> forall i, i < size' -> ~ cacheR s' (offset d' i)) /\ holds s' d' out).
Proof.
  intros W Ha B Hg Hu. destruct B as [X Hz Hp0 Hp Hd Hw Hc Hh Hl Hm Hpos Hmx].
  apply wp_bind, (wp_load _ _ out); auto.
  eapply wp_seq; [eapply (alloc_step Dn Dv A (K0 + 2 * (size - I0)) size'); eauto; lia|].
  intros d' s1 [X1 P]. apply wp_bind, wp_store; [unfold lenN in *; lia|]. apply wp_ret.
  assert (N' : forall i, i < size' -> wr s0 (offset d' i)).
  { intros i Hi. apply beyond_wr; auto. apply (beyond_ext _ _ _ _ _ _ X).
    unfold offset. apply (ap_new _ _ _ _ _ P); lia. }
  split; [destruct P; constructor; auto|].
  exists d'. split; auto. split; [|split; [|split; [|split; [|split; [|split]]]]]; auto.
  - apply ext_store_wr with A.
    + eapply ext_more; eauto. lia.
    + eapply inrA_less; [apply (ap_in _ _ _ _ _ P)|]. lia.
    + intros i Hi. apply N'. unfold lenN in *. lia.
  - simpl. now rewrite (ap_strs _ _ _ _ _ P).
  - apply (ap_old _ _ _ _ _ P). auto.
  - apply (ap_in _ _ _ _ _ P).
  - intros _ i Hi (q & z & E1 & E2 & E3). simpl in *. rewrite (ap_cache _ _ _ _ _ P) in E1. rewrite (ap_strs _ _ _ _ _ P) in E2.
    apply (cacheR_beyond s (offset d' i) (x_wf _ _ _ _ _ X)); [exists q, z; auto|]. unfold offset. apply (ap_new _ _ _ _ _ P); lia.
  - apply holds_store.
Qed.

Lemma ext_more_size Dn Dv A I0 K0 size size' s s' : size <= size' ->
  ext Dn Dv (at_ A (K0 + 2 * (size - I0))) s s' -> ext Dn Dv (at_ A (K0 + 2 * (size' - I0))) s s'.
Proof. intros H X. eapply ext_more; eauto. lia. Qed.

Lemma appendStr_sb Dn Dv A I0 K0 s0 s p out bs : wfst s0 -> alive s0 A ->
  sbx Dn Dv A I0 K0 s0 s p out -> I0 <= two30 -> usedA s0 A + K0 + 4 * (lenN out + lenN bs) <= two30 ->
  wp (zj_appendStr p bs) s (fun _ s' => sbx Dn Dv A I0 K0 s0 s' p (out ++ bs) /\ same s s').
Proof.
  intros W Ha (d & size & B) HI Hu. unfold zj_appendStr.
  apply wp_bind, (wp_getZ _ _ _ _ (sb_z _ _ _ _ _ _ _ _ _ _ _ B)). cbv zeta. cbn [zData zPos zSize zA].
  fold (lenN bs).
  assert (E : u32 (lenN out + lenN bs) = lenN out + lenN bs) by (apply u32_small; unfold two30, two32 in *; lia).
  rewrite E. destruct (N.ltb_spec size (lenN out + lenN bs)) as [L|L].
  - pose proof (sb_min _ _ _ _ _ _ _ _ _ _ _ B) as Bm. pose proof (sb_pos _ _ _ _ _ _ _ _ _ _ _ B) as Bp.
    assert (E2 : u32 (size * zj_Delta) = 2 * size).
    { unfold zj_Delta. rewrite u32_small; unfold two30, two32 in *; lia. }
    rewrite E2. destruct (grow_ok40 (lenN out + lenN bs) (2 * size)) as (s' & Eg & G1 & G2 & G3); [lia|lia|].
    rewrite Eg.
    eapply wp_seq with (P := fun z s1 => same s s1 /\ exists d', z = mkStr d' (lenN out) s' A /\
        ext Dn Dv (at_ A (K0 + 2 * (s' - I0))) s0 s1 /\ sstrs s1 p = Some (mkStr d (lenN out) size A) /\
        inrA s1 A p sizeof_string /\ inrA s1 A d' s' /\ (forall i, i < s' -> wr s0 (offset d' i)) /\
        (scache s1 <> At p -> forall i, i < s' -> ~ cacheR s1 (offset d' i)) /\ holds s1 d' out).
    { eapply wp_seq with (P := fun x s1 => x = s' /\ s1 = s); [eapply wp_lift; eauto|].
      intros ? ? [-> ->]. eapply sb_grow; eauto. lia. }
    intros z s1 (Sm & d' & -> & X & Hz & Hp & Hd & Hw & Hc & Hh). cbn [zData zPos zSize zA]. rewrite ?E.
    eapply wp_mono; [eapply (sb_put Dn Dv A I0 K0 s0 s1 p d' s' out bs); eauto; try lia; apply (sb_p0 _ _ _ _ _ _ _ _ _ _ _ B)|].
    intros _ s2 [B2 Sm2]. split; [exists d', s'; auto|eapply same_trans; eauto].
  - apply wp_bind, wp_ret. cbn [zData zPos zSize zA]. rewrite ?E.
    pose proof (sb_max _ _ _ _ _ _ _ _ _ _ _ B) as Bm. pose proof (sb_len _ _ _ _ _ _ _ _ _ _ _ B) as Bl.
    destruct B as [X Hz Hp0 Hp Hd Hw Hc Hh Hl Hm Hpos Hmx].
    eapply wp_mono; [eapply (sb_put Dn Dv A I0 K0 s0 s p d size out bs); eauto; lia|].
    intros _ s2 [B2 Sm2]. split; [exists d, size; auto|auto].
Qed.

Lemma appendChar_sb Dn Dv A I0 K0 s0 s p out c : wfst s0 -> alive s0 A ->
  sbx Dn Dv A I0 K0 s0 s p out -> I0 <= two30 -> usedA s0 A + K0 + 4 * (lenN out + 1) <= two30 ->
  wp (zj_appendChar p c) s (fun _ s' => sbx Dn Dv A I0 K0 s0 s' p (out ++ [c]) /\ same s s').
Proof.
  intros W Ha (d & size & B) HI Hu. unfold zj_appendChar.
  apply wp_bind, (wp_getZ _ _ _ _ (sb_z _ _ _ _ _ _ _ _ _ _ _ B)). cbv zeta. cbn [zData zPos zSize zA].
  assert (E1 : lenN [c] = 1) by reflexivity.
  assert (E : u32 (lenN out + 1) = lenN out + lenN [c]) by (rewrite E1; apply u32_small; unfold two30, two32 in *; lia).
  rewrite E. pose proof (sb_len _ _ _ _ _ _ _ _ _ _ _ B) as Bl.
  pose proof (sb_min _ _ _ _ _ _ _ _ _ _ _ B) as Bm. pose proof (sb_pos _ _ _ _ _ _ _ _ _ _ _ B) as Bp.
  pose proof (sb_max _ _ _ _ _ _ _ _ _ _ _ B) as Bx.
  destruct (N.ltb_spec size (lenN out + lenN [c])) as [L|L].
  - assert (E2 : u32 (size * zj_Delta) = 2 * size).
    { unfold zj_Delta. rewrite u32_small; unfold two30, two32 in *; lia. }
    rewrite E2.
    eapply wp_seq; [eapply (sb_grow Dn Dv A I0 K0 s0 s p d size out (2 * size)); eauto; lia|].
    intros z s1 (Sm & d' & -> & X & Hz & Hp & Hd & Hw & Hc & Hh). cbn [zData zPos zSize zA]. rewrite ?E.
    eapply wp_mono; [eapply (sb_put Dn Dv A I0 K0 s0 s1 p d' (2 * size) out [c]); eauto; try lia; apply (sb_p0 _ _ _ _ _ _ _ _ _ _ _ B)|].
    intros _ s2 [B2 Sm2]. split; [exists d', (2 * size); auto|eapply same_trans; eauto].
  - apply wp_bind, wp_ret. cbn [zData zPos zSize zA]. rewrite ?E.
    destruct B as [X Hz Hp0 Hp Hd Hw Hc Hh Hl Hm Hpos Hmx].
    eapply wp_mono; [eapply (sb_put Dn Dv A I0 K0 s0 s p d size out [c]); eauto; lia|].
    intros _ s2 [B2 Sm2]. split; [exists d, size; auto|auto].
Qed.

(** A new builder. *)
Lemma newString_sb Dn Dv A I0 k s0 s : wfst s0 -> alive s0 A -> ext Dn Dv (at_ A k) s0 s -> 0 < I0 ->
  usedA s0 A + k + (24 + I0) <= two30 ->
  wp (zj_newString A I0) s (fun p s' => sbx Dn Dv A I0 (k + (24 + I0)) s0 s' p [] /\ same s s' /\ beyond s p).
Proof.
  intros W Ha X HI Hu. unfold zj_newString.
  eapply wp_seq; [eapply (alloc_step Dn Dv A k (sizeof_string + I0)); eauto; unfold sizeof_string; lia|].
  intros p s1 [X1 P]. apply wp_bind, wp_putZ, wp_ret.
  assert (B : forall i, i < 24 + I0 -> beyond s (offset p i)).
  { intros i Hi. unfold offset. apply (ap_new _ _ _ _ _ P); unfold sizeof_string; lia. }
  assert (Hin := ap_in _ _ _ _ _ P).
  assert (Bp : beyond s p) by (rewrite <- (offset_0 p); apply B; lia).
  split; [|split; auto; destruct P; constructor; auto].
  exists (offset p sizeof_string), I0.
  assert (Np : sstrs s0 p = None).
  { apply (beyond_nothing s0 p W). exact (beyond_ext _ _ _ _ _ _ X Bp). }
  assert (Nd : forall i, i < I0 -> wr s0 (offset (offset p sizeof_string) i)).
  { intros i Hi. rewrite offset_offset. apply beyond_wr; auto.
    apply (beyond_ext _ _ _ _ _ _ X). apply B. unfold sizeof_string. lia. }
  assert (I1 : inrA s1 A p sizeof_string) by (apply (inrA_less _ _ _ _ _ Hin); lia).
  assert (I2 : inrA s1 A (offset p sizeof_string) I0) by (apply (inrA_shift _ _ _ _ _ _ Hin); lia).
  assert (X2 : ext Dn Dv (at_ A (k + (24 + I0) + 2 * (I0 - I0))) s0
     (set_strs (upd (sstrs s1) p (mkStr (offset p sizeof_string) (lenN (@nil N)) I0 A)) s1)).
  { replace (k + (24 + I0) + 2 * (I0 - I0)) with (k + (sizeof_string + I0)) by (unfold sizeof_string; lia).
    apply ext_putZ_wr; auto.
    right. exists A. apply (inrA_less _ _ _ _ _ Hin). unfold sizeof_string. lia. }
  constructor; auto.
  - simpl. apply upd_eq.
  - simpl. intros Nc i Hi (q & z & E1 & E2 & E3). simpl in *. rewrite upd_neq in E2 by congruence.
    rewrite (ap_cache _ _ _ _ _ P) in E1. rewrite (ap_strs _ _ _ _ _ P) in E2.
    apply (cacheR_beyond s (offset (offset p sizeof_string) i) (x_wf _ _ _ _ _ X)); [exists q, z; auto|]. rewrite offset_offset. apply B. unfold sizeof_string. lia.
  - apply holds_nil.
  - unfold lenN. simpl. lia.
  - lia.
  - unfold lenN. simpl. lia.
Qed.

(** What can be read from the finished builder. *)
Lemma sbx_text Dn Dv A I0 K0 s0 s p out : sbx Dn Dv A I0 K0 s0 s p out ->
  wp (zj_str p) s (fun d s' => s' = s /\ holds s d out /\ inrA s A d (lenN out) /\
     (forall i, i < lenN out -> wr s0 (offset d i)) /\
     ext Dn Dv (at_ A (K0 + 2 * (N.max I0 (2 * lenN out) - I0))) s0 s).
Proof.
  intros (d & size & [X Hz Hp0 Hp Hd Hw Hc Hh Hl Hm Hpos Hmx]). unfold zj_str.
  apply wp_bind, (wp_getZ _ _ _ _ Hz), wp_ret. cbn [zData].
  split; auto. split; [auto|]. split; [|split].
  - eapply inrA_less; eauto.
  - intros i Hi. apply Hw. lia.
  - eapply ext_more; eauto. lia.
Qed.
