(** The lexical functions against the grammar. *)
From Verif Require Import Base Spec Lex.

Ltac bools := rewrite ?andb_true_iff, ?orb_true_iff, ?andb_false_iff, ?orb_false_iff,
  ?N.eqb_eq, ?N.eqb_neq, ?N.leb_le, ?N.leb_gt, ?N.ltb_lt, ?N.ltb_ge in *.

Lemma rbind_Ok {A B} (r : res A) (f : A -> res B) b :
  rbind r f = Ok b -> exists a, r = Ok a /\ f a = Ok b.
Proof. destruct r; simpl; intro H; [eauto | discriminate]. Qed.

Lemma u32_small x : x < two32 -> u32 x = x.
Proof. intro H. apply N.mod_small. exact H. Qed.

Lemma len_cons {A} (x : A) l : N.of_nat (length (x :: l)) = N.of_nat (length l) + 1.
Proof. simpl. lia. Qed.

(** ** Whitespace *)
Lemma skin_ws c : zj_skin c = true <-> is_ws c.
Proof. unfold zj_skin, is_ws. bools. tauto. Qed.
Lemma skin_not_ws c : zj_skin c = false <-> ~ is_ws c.
Proof. rewrite <- skin_ws. destruct (zj_skin c); split; congruence. Qed.

Lemma skip_ws_app w c r : ws w -> ~ is_ws c -> skip_ws (w ++ c :: r) = Ok (c :: r).
Proof.
  induction 1 as [|x w Hx Hw IH]; intro Hc; simpl.
  - apply skin_not_ws in Hc. now rewrite Hc.
  - apply skin_ws in Hx. rewrite Hx. auto.
Qed.

Lemma skip_ws_inv s r : skip_ws s = Ok r ->
  exists w c r', ws w /\ ~ is_ws c /\ s = w ++ c :: r' /\ r = c :: r'.
Proof.
  induction s as [|x s IH]; simpl; [discriminate|].
  destruct (zj_skin x) eqn:E; intro H.
  - destruct (IH H) as (w & c & r' & Hw & Hc & -> & ->).
    exists (x :: w), c, r'. repeat split; auto. constructor; auto. now apply skin_ws.
  - injection H as <-. exists [], x, s. repeat split; auto. constructor.
    now apply skin_not_ws.
Qed.

Lemma is_ws_dec c : {is_ws c} + {~ is_ws c}.
Proof.
  destruct (zj_skin c) eqn:E; [left; now apply skin_ws | right; now apply skin_not_ws].
Qed.

Lemma ws_nonzero : ~ is_ws 0.
Proof. unfold is_ws. lia. Qed.

Lemma skip_ws_safe s : In 0 s -> exists r, skip_ws s = Ok r /\ In 0 r.
Proof.
  induction s as [|x s IH]; simpl; [tauto|].
  intros H. destruct (zj_skin x) eqn:E.
  - apply IH. destruct H; auto. subst. discriminate E.
  - exists (x :: s). auto.
Qed.

Lemma peek_app w c r : ws w -> ~ is_ws c -> zj_peek (w ++ c :: r) = Ok (c, r).
Proof. intros. unfold zj_peek. rewrite skip_ws_app; auto. Qed.
Lemma peek_inv s c r : zj_peek s = Ok (c, r) -> exists w, ws w /\ ~ is_ws c /\ s = w ++ c :: r.
Proof.
  unfold zj_peek. intro H. apply rbind_Ok in H as (x & H & H2).
  apply skip_ws_inv in H as (w & c' & r' & ? & ? & -> & ->).
  simpl in H2. injection H2 as -> ->. eauto.
Qed.
Lemma peek_safe s : In 0 s -> exists c r, zj_peek s = Ok (c, r) /\ (c = 0 \/ In 0 r).
Proof.
  intro H. destruct (skip_ws_safe _ H) as (r & E & Hr). unfold zj_peek. rewrite E. simpl.
  destruct r as [|c r]; [destruct Hr|]. exists c, r. split; auto.
Qed.

Lemma pac_yes x w r : ws w -> ~ is_ws x -> zj_peekAndConsume x (w ++ x :: r) = Ok (true, r).
Proof.
  intros. unfold zj_peekAndConsume. rewrite skip_ws_app by auto. simpl. now rewrite N.eqb_refl.
Qed.
Lemma pac_no x w c r : ws w -> ~ is_ws c -> c <> x ->
  zj_peekAndConsume x (w ++ c :: r) = Ok (false, c :: r).
Proof.
  intros. unfold zj_peekAndConsume. rewrite skip_ws_app by auto. simpl.
  apply N.eqb_neq in H1. now rewrite H1.
Qed.
Lemma pac_inv x s b r : zj_peekAndConsume x s = Ok (b, r) ->
  exists w, ws w /\
  (if b then s = w ++ x :: r else exists c r', r = c :: r' /\ c <> x /\ ~ is_ws c /\ s = w ++ r).
Proof.
  unfold zj_peekAndConsume. intro H. apply rbind_Ok in H as (y & H & H2).
  apply skip_ws_inv in H as (w & c & r' & Hw & Hc & -> & ->).
  destruct (c =? x) eqn:E; injection H2 as <- <-; exists w; split; auto.
  - apply N.eqb_eq in E. now subst.
  - apply N.eqb_neq in E. exists c, r'. auto.
Qed.
Lemma pac_safe x s : x <> 0 -> In 0 s ->
  exists b r, zj_peekAndConsume x s = Ok (b, r) /\ In 0 r.
Proof.
  intros Hx H. destruct (skip_ws_safe _ H) as (r & E & Hr).
  unfold zj_peekAndConsume. rewrite E. simpl.
  destruct r as [|c r]; [destruct Hr|]. destruct (c =? x) eqn:Ec.
  - apply N.eqb_eq in Ec. subst. exists true, r. split; auto. destruct Hr; [congruence|auto].
  - exists false, (c :: r). auto.
Qed.
Lemma pac0_safe s : In 0 s -> exists b r, zj_peekAndConsume 0 s = Ok (b, r).
Proof.
  intros H. destruct (skip_ws_safe _ H) as (r & E & Hr).
  unfold zj_peekAndConsume. rewrite E. simpl.
  destruct r as [|c r]; [destruct Hr|]. destruct (c =? 0); eauto.
Qed.

(** ** Hexadecimal *)
Lemma hexCodePoint_hexval c :
  zj_hexCodePoint c = match hexval c with Some x => x | None => 16 end.
Proof.
  unfold zj_hexCodePoint, hexval.
  destruct ((48 <=? c) && (c <=? 57)) eqn:E1; auto.
  destruct ((65 <=? c) && (c <=? 70)) eqn:E2; [bools; lia|].
  destruct ((97 <=? c) && (c <=? 102)) eqn:E3; auto. bools; lia.
Qed.
Lemma hexval_lt c x : hexval c = Some x -> x < 16.
Proof.
  unfold hexval.
  destruct ((48 <=? c) && (c <=? 57)) eqn:E1; [intro H; injection H as <-; bools; lia|].
  destruct ((65 <=? c) && (c <=? 70)) eqn:E2; [intro H; injection H as <-; bools; lia|].
  destruct ((97 <=? c) && (c <=? 102)) eqn:E3; [intro H; injection H as <-; bools; lia|].
  discriminate.
Qed.
Lemma hexval_nonzero c x : hexval c = Some x -> 48 <= c.
Proof.
  unfold hexval.
  destruct ((48 <=? c) && (c <=? 57)) eqn:E1; [bools; lia|].
  destruct ((65 <=? c) && (c <=? 70)) eqn:E2; [bools; lia|].
  destruct ((97 <=? c) && (c <=? 102)) eqn:E3; [bools; lia|].
  discriminate.
Qed.

Lemma hexOne_yes c r x cp : hexval c = Some x -> cp < 268435456 ->
  zj_consumeHexOne (c :: r) cp = Ok (Some (16 * cp + x, r)).
Proof.
  intros Hx Hcp. pose proof (hexval_lt _ _ Hx). unfold zj_consumeHexOne.
  rewrite hexCodePoint_hexval, Hx.
  replace (x <? 16) with true by (symmetry; apply N.ltb_lt; auto).
  rewrite N.shiftl_mul_pow2. change (2 ^ 4) with 16.
  rewrite !u32_small; unfold two32; try lia.
  all: try (rewrite u32_small; unfold two32; lia).
  do 3 f_equal. lia.
Qed.
Lemma hexOne_inv s cp cp' r : cp < 268435456 -> zj_consumeHexOne s cp = Ok (Some (cp', r)) ->
  exists c x, s = c :: r /\ hexval c = Some x /\ cp' = 16 * cp + x.
Proof.
  intros Hcp. destruct s as [|c s]; [discriminate|]. intro H.
  destruct (hexval c) as [x|] eqn:E.
  - rewrite (hexOne_yes _ _ _ _ E Hcp) in H. injection H as <- <-. eauto.
  - unfold zj_consumeHexOne in H. rewrite hexCodePoint_hexval, E in H. discriminate.
Qed.
Lemma hexOne_safe s cp : s <> [] -> exists o, zj_consumeHexOne s cp = Ok o.
Proof. destruct s; [congruence|]. simpl. eauto. Qed.

Lemma hex4_lt a b c d v : hex4 a b c d v -> v < 65536.
Proof.
  intros (x & y & z & t & Hx & Hy & Hz & Ht & ->).
  apply hexval_lt in Hx, Hy, Hz, Ht. lia.
Qed.
Lemma hex4_fun a b c d v v' : hex4 a b c d v -> hex4 a b c d v' -> v = v'.
Proof.
  intros (x & y & z & t & Hx & Hy & Hz & Ht & ->) (x' & y' & z' & t' & Hx' & Hy' & Hz' & Ht' & ->).
  congruence.
Qed.

Lemma consumeHex_yes a b c d v r : hex4 a b c d v ->
  zj_consumeHex (a :: b :: c :: d :: r) = Ok (Some (v, r)).
Proof.
  intros (x & y & z & t & Hx & Hy & Hz & Ht & ->).
  pose proof (hexval_lt _ _ Hx). pose proof (hexval_lt _ _ Hy). pose proof (hexval_lt _ _ Hz).
  pose proof (hexval_lt _ _ Ht).
  unfold zj_consumeHex.
  rewrite (hexOne_yes _ _ _ _ Hx) by lia. cbn [rbind].
  rewrite (hexOne_yes _ _ _ _ Hy) by lia. cbn [rbind].
  rewrite (hexOne_yes _ _ _ _ Hz) by lia. cbn [rbind].
  rewrite (hexOne_yes _ _ _ _ Ht) by lia.
  do 3 f_equal. lia.
Qed.
Lemma consumeHex_inv s v r : zj_consumeHex s = Ok (Some (v, r)) ->
  exists a b c d, s = a :: b :: c :: d :: r /\ hex4 a b c d v.
Proof.
  unfold zj_consumeHex. intro H.
  apply rbind_Ok in H as (o1 & H1 & H). destruct o1 as [[c1 s1]|]; [|discriminate].
  apply hexOne_inv in H1 as (a & x & -> & Hx & ->); [|lia].
  pose proof (hexval_lt _ _ Hx).
  apply rbind_Ok in H as (o2 & H2 & H). destruct o2 as [[c2 s2]|]; [|discriminate].
  apply hexOne_inv in H2 as (b & y & -> & Hy & ->); [|lia].
  pose proof (hexval_lt _ _ Hy).
  apply rbind_Ok in H as (o3 & H3 & H). destruct o3 as [[c3 s3]|]; [|discriminate].
  apply hexOne_inv in H3 as (c & z & -> & Hz & ->); [|lia].
  pose proof (hexval_lt _ _ Hz).
  apply hexOne_inv in H as (d & t & -> & Ht & ->); [|lia].
  exists a, b, c, d. split; auto. exists x, y, z, t. repeat split; auto. lia.
Qed.

(** A byte read before the first 0 exists, and what follows still has the 0. *)
Lemma consumeHex_safe s : In 0 s ->
  exists o, zj_consumeHex s = Ok o /\ match o with Some (_, r) => In 0 r | None => True end.
Proof.
  intro H. assert (K : forall s cp, In 0 s -> exists o, zj_consumeHexOne s cp = Ok o /\
    match o with Some (_, r) => In 0 r | None => True end).
  { clear. intros s cp H. destruct s as [|c s]; [destruct H|]. simpl.
    rewrite hexCodePoint_hexval. destruct (hexval c) as [x|] eqn:E.
    - pose proof (hexval_lt _ _ E) as L. apply N.ltb_lt in L. rewrite L. eexists; split; [reflexivity|].
      destruct H; auto. subst. discriminate E.
    - eexists; split; [reflexivity|]. exact I. }
  unfold zj_consumeHex.
  destruct (K s 0 H) as ([[c1 s1]|] & E1 & H1); rewrite E1; simpl; [|eauto].
  destruct (K s1 c1 H1) as ([[c2 s2]|] & E2 & H2); rewrite E2; simpl; [|eauto].
  destruct (K s2 c2 H2) as ([[c3 s3]|] & E3 & H3); rewrite E3; simpl; [|eauto].
  apply K; auto.
Qed.

(** ** String bodies *)
Lemma simple_escape_spec c : simple_escape c = true <-> exists x, short_escape c = Some x.
Proof.
  unfold simple_escape, short_escape.
  repeat (match goal with |- context [c =? ?k] =>
    destruct (N.eqb_spec c k); [subst c; vm_compute; split; eauto|] end).
  simpl. split; [discriminate|intros [? H]; discriminate].
Qed.

Lemma consume_yes c r : zj_consume c (c :: r) = Ok (Some r).
Proof. unfold zj_consume. now rewrite N.eqb_refl. Qed.
Lemma consume_no c x r : x <> c -> zj_consume c (x :: r) = Ok None.
Proof. intro H. unfold zj_consume. apply N.eqb_neq in H. now rewrite H. Qed.
Lemma consume_inv c s r : zj_consume c s = Ok (Some r) -> s = c :: r.
Proof.
  destruct s as [|x s]; simpl; [discriminate|]. destruct (x =? c) eqn:E; [|discriminate].
  intro H. injection H as <-. apply N.eqb_eq in E. now subst.
Qed.

Lemma u_escape_inv D s n : 57343 <= D -> u_escape D s = Ok (Some n) ->
  (n = 4%nat /\ exists a b c d r v, s = a :: b :: c :: d :: r /\ hex4 a b c d v /\
     ~ (56320 <= v <= D) /\ ~ high_surrogate v) \/
  (n = 10%nat /\ exists a b c d a' b' c' d' r v v',
     s = a :: b :: c :: d :: 92 :: 117 :: a' :: b' :: c' :: d' :: r /\
     hex4 a b c d v /\ high_surrogate v /\ hex4 a' b' c' d' v' /\ low_surrogate v').
Proof.
  intros HD. unfold u_escape, high_surrogate, low_surrogate. intro H.
  apply rbind_Ok in H as (o1 & H1 & H). destruct o1 as [[v s1]|]; [|discriminate].
  apply consumeHex_inv in H1 as (a & b & c & d & -> & Hv).
  destruct ((56320 <=? v) && (v <=? D)) eqn:E1; [discriminate|].
  destruct ((55296 <=? v) && (v <=? 56319)) eqn:E2.
  - apply rbind_Ok in H as (o2 & H2 & H). destruct o2 as [s2|]; [|discriminate].
    apply consume_inv in H2. subst s1.
    apply rbind_Ok in H as (o3 & H3 & H). destruct o3 as [s3|]; [|discriminate].
    apply consume_inv in H3. subst s2.
    apply rbind_Ok in H as (o4 & H4 & H). destruct o4 as [[v' s4]|]; [|discriminate].
    apply consumeHex_inv in H4 as (a' & b' & c' & d' & -> & Hv').
    destruct ((v' <? 56320) || (57343 <? v')) eqn:E3; [discriminate|].
    injection H as <-. right. split; auto.
    exists a, b, c, d, a', b', c', d', s4, v, v'. bools. repeat split; auto; lia.
  - injection H as <-. left. split; auto. exists a, b, c, d, s1, v.
    repeat split; auto; bools; lia.
Qed.
Lemma u_escape_4 D a b c d r v : hex4 a b c d v -> ~ (56320 <= v <= D) -> ~ high_surrogate v ->
  u_escape D (a :: b :: c :: d :: r) = Ok (Some 4%nat).
Proof.
  intros Hv H1 H2. unfold u_escape. rewrite (consumeHex_yes _ _ _ _ _ _ Hv). simpl.
  unfold high_surrogate in H2.
  replace ((56320 <=? v) && (v <=? D)) with false by (symmetry; bools; lia).
  replace ((55296 <=? v) && (v <=? 56319)) with false by (symmetry; bools; lia). reflexivity.
Qed.
Lemma u_escape_10 D a b c d a' b' c' d' r v v' : hex4 a b c d v -> high_surrogate v ->
  hex4 a' b' c' d' v' -> low_surrogate v' ->
  u_escape D (a :: b :: c :: d :: 92 :: 117 :: a' :: b' :: c' :: d' :: r) = Ok (Some 10%nat).
Proof.
  intros Hv H1 Hv' H2. unfold u_escape. rewrite (consumeHex_yes _ _ _ _ _ _ Hv). simpl.
  unfold high_surrogate, low_surrogate in *.
  replace ((56320 <=? v) && (v <=? D)) with false by (symmetry; bools; lia).
  replace ((55296 <=? v) && (v <=? 56319)) with true by (symmetry; bools; lia).
  cbn [rbind]. fold (zj_consume 117 (117 :: a' :: b' :: c' :: d' :: r)). simpl.
  change (117 =? 117) with true. simpl.
  rewrite (consumeHex_yes _ _ _ _ _ _ Hv'). simpl.
  replace ((v' <? 56320) || (57343 <? v')) with false by (symmetry; bools; lia). reflexivity.
Qed.
Lemma u_escape_safe D s : In 0 s -> exists o, u_escape D s = Ok o.
Proof.
  intro H. unfold u_escape.
  destruct (consumeHex_safe _ H) as ([[v s1]|] & E1 & H1); rewrite E1; simpl; [|eauto].
  destruct ((56320 <=? v) && (v <=? D)); [eauto|].
  destruct ((55296 <=? v) && (v <=? 56319)); [|eauto].
  destruct s1 as [|x1 s1]; [destruct H1|]. simpl. destruct (x1 =? 92) eqn:Ex1; [|eauto].
  apply N.eqb_eq in Ex1. destruct H1 as [->|H1]; [discriminate|].
  destruct s1 as [|x2 s1]; [destruct H1|]. simpl. destruct (x2 =? 117) eqn:Ex2; [|eauto].
  apply N.eqb_eq in Ex2. destruct H1 as [->|H1]; [discriminate|].
  destruct (consumeHex_safe _ H1) as ([[v' s2]|] & E2 & H2); rewrite E2; simpl; [|eauto].
  destruct ((v' <? 56320) || (57343 <? v')); eauto.
Qed.

Lemma strbody_nil : strbody [].
Proof. exists []. constructor. Qed.
Lemma strbody_plain c r : 32 <= c -> c <> 34 -> c <> 92 -> strbody r -> strbody (c :: r).
Proof. intros ? ? ? [o H]. exists (c :: o). now constructor. Qed.
Lemma strbody_short c x r : short_escape c = Some x -> strbody r -> strbody (92 :: c :: r).
Proof. intros ? [o H]. exists (x :: o). now constructor. Qed.
Lemma strbody_u a b c d v r : hex4 a b c d v -> ~ high_surrogate v -> ~ low_surrogate v ->
  strbody r -> strbody (92 :: 117 :: a :: b :: c :: d :: r).
Proof. intros ? ? ? [o ?]. exists (utf8 v ++ o). now constructor. Qed.
Lemma strbody_pair a b c d a' b' c' d' v v' r : hex4 a b c d v -> high_surrogate v ->
  hex4 a' b' c' d' v' -> low_surrogate v' -> strbody r ->
  strbody (92 :: 117 :: a :: b :: c :: d :: 92 :: 117 :: a' :: b' :: c' :: d' :: r).
Proof. intros ? ? ? ? [o ?]. eexists. eapply dec_pair; eauto. Qed.

Lemma decodes_ge32 b o : decodes b o -> Forall (fun c => 32 <= c) b.
Proof.
  assert (K : forall a b c d v, hex4 a b c d v -> 32 <= a /\ 32 <= b /\ 32 <= c /\ 32 <= d).
  { intros ? ? ? ? ? (x & y & z & t & Hx & Hy & Hz & Ht & _).
    apply hexval_nonzero in Hx, Hy, Hz, Ht. lia. }
  induction 1 as [|c r o Hc Hq Hb H IH|c x r o Hc H IH|a b c d v r o Hv H1 H2 H IH
    |a b c d a' b' c' d' v v' r o Hv H1 Hv' H2 H IH].
  - constructor.
  - constructor; auto.
  - constructor; [lia|]. constructor; auto. unfold short_escape in Hc.
    repeat match type of Hc with (if ?t =? ?k then _ else _) = _ =>
      destruct (t =? k) eqn:?; [bools; lia|] end. discriminate.
  - apply K in Hv. repeat (constructor; [lia|]). auto.
  - apply K in Hv, Hv'. repeat (constructor; [lia|]). auto.
Qed.
Lemma strbody_ge32 b : strbody b -> Forall (fun c => 32 <= c) b.
Proof. intros [o H]. eapply decodes_ge32; eauto. Qed.
Lemma strbody_no0 b : strbody b -> ~ In 0 b.
Proof. intros H I. apply strbody_ge32 in H. rewrite Forall_forall in H. apply H in I. lia. Qed.

Lemma short_escape_facts c x : short_escape c = Some x ->
  simple_escape c = true.
Proof. intro H. apply simple_escape_spec. eauto. Qed.

Lemma consumeStr_yes b r : strbody b -> zj_consumeStr (b ++ 34 :: r) = Ok (Some r).
Proof.
  intros [o H].
  induction H as [|c s o Hc Hq Hb H IH|c x s o Hc H IH|a b c d v s o Hv H1 H2 H IH
    |a b c d a' b' c' d' v v' s o Hv H1 Hv' H2 H IH].
  - reflexivity.
  - cbn [zj_consumeStr app].
    replace (c =? 0) with false by (symmetry; bools; lia).
    replace (c <=? 31) with false by (symmetry; bools; lia).
    replace (c =? 92) with false by (symmetry; bools; lia).
    replace (c =? 34) with false by (symmetry; bools; lia). exact IH.
  - cbn [zj_consumeStr app]. change (92 =? 0) with false. change (92 <=? 31) with false.
    change (92 =? 92) with true. cbv iota. rewrite (short_escape_facts _ _ Hc). exact IH.
  - cbn [zj_consumeStr app]. change (92 =? 0) with false. change (92 <=? 31) with false.
    change (92 =? 92) with true. change (simple_escape 117) with false.
    change (117 =? 117) with true. cbv iota.
    rewrite (u_escape_4 _ _ _ _ _ _ _ Hv) by auto. exact IH.
  - cbn [zj_consumeStr app]. change (92 =? 0) with false. change (92 <=? 31) with false.
    change (92 =? 92) with true. change (simple_escape 117) with false.
    change (117 =? 117) with true. cbv iota.
    rewrite (u_escape_10 _ _ _ _ _ _ _ _ _ _ _ _ Hv H1 Hv' H2). exact IH.
Qed.

Lemma consumeStr_inv s r : zj_consumeStr s = Ok (Some r) ->
  exists b, strbody b /\ s = b ++ 34 :: r.
Proof.
  remember (length s) as n eqn:Hn. revert s r Hn.
  induction n as [n IH] using lt_wf_ind. intros s r Hn H.
  destruct s as [|c s1]; [discriminate|]. cbn [zj_consumeStr] in H.
  destruct (c =? 0) eqn:E0; [discriminate|].
  destruct (c <=? 31) eqn:E1; [discriminate|].
  destruct (c =? 92) eqn:E2.
  - apply N.eqb_eq in E2. subst c. destruct s1 as [|e s2]; [discriminate|].
    destruct (simple_escape e) eqn:E3.
    + apply simple_escape_spec in E3 as [x Hx].
      destruct (IH (length s2) ltac:(simpl in Hn; lia) s2 _ eq_refl H) as (b & Hb & ->).
      exists (92 :: e :: b). split; auto. eapply strbody_short; eauto.
    + destruct (e =? 117) eqn:E4; [|discriminate]. apply N.eqb_eq in E4. subst e.
      apply rbind_Ok in H as (o & Ho & H). destruct o as [k|]; [|discriminate].
      apply u_escape_inv in Ho; [|lia].
      destruct Ho as [(-> & a & b & c & d & r' & v & -> & Hv & Hl & Hh)
        |(-> & a & b & c & d & a' & b' & c' & d' & r' & v & v' & -> & Hv & Hh & Hv' & Hl)].
      * destruct (IH (length r') ltac:(simpl in Hn; lia) r' _ eq_refl H) as (q & Hq & ->).
        exists (92 :: 117 :: a :: b :: c :: d :: q). split; auto.
        eapply strbody_u; eauto.
      * destruct (IH (length r') ltac:(simpl in Hn; lia) r' _ eq_refl H) as (q & Hq & ->).
        exists (92 :: 117 :: a :: b :: c :: d :: 92 :: 117 :: a' :: b' :: c' :: d' :: q).
        split; auto. eapply strbody_pair; eauto.
  - destruct (c =? 34) eqn:E3.
    + apply N.eqb_eq in E3. subst c. injection H as <-. exists []. split; auto. apply strbody_nil.
    + destruct (IH (length s1) ltac:(simpl in Hn; lia) s1 _ eq_refl H) as (b & Hb & ->).
      exists (c :: b). split; auto. bools. apply strbody_plain; auto; lia.
Qed.

Lemma In0_after b r : (forall c, In c b -> c <> 0) -> In 0 (b ++ r) -> In 0 r.
Proof. intros H I. apply in_app_or in I as [I|I]; auto. now apply H in I. Qed.

Lemma consumeStr_safe s : In 0 s ->
  exists o, zj_consumeStr s = Ok o /\ match o with Some r => In 0 r | None => True end.
Proof.
  intro H. assert (K : exists o, zj_consumeStr s = Ok o).
  { remember (length s) as n eqn:Hn. revert s Hn H.
    induction n as [n IH] using lt_wf_ind. intros s Hn H.
    destruct s as [|c s1]; [destruct H|]. cbn [zj_consumeStr].
    destruct (c =? 0) eqn:E0; [eauto|].
    destruct (c <=? 31) eqn:E1; [eauto|].
    assert (H' : In 0 s1) by (destruct H; auto; bools; congruence).
    destruct (c =? 92) eqn:E2.
    - destruct s1 as [|e s2]; [destruct H'|].
      destruct (simple_escape e) eqn:E3.
      + apply (IH (length s2) ltac:(simpl in Hn; lia) s2 eq_refl).
        destruct H'; auto. subst. discriminate.
      + destruct (e =? 117) eqn:E4; [|eauto].
        assert (H2 : In 0 s2) by (destruct H'; auto; subst; discriminate).
        destruct (u_escape_safe 57343 _ H2) as [o Ho]. rewrite Ho. simpl.
        destruct o as [k|]; [|eauto]. apply u_escape_inv in Ho; [|lia].
        assert (Kx : forall a b c d v, hex4 a b c d v -> forall z, In z [a; b; c; d] -> z <> 0).
        { intros ? ? ? ? ? (x & y & z & t & Hx & Hy & Hz & Ht & _) w Hw.
          apply hexval_nonzero in Hx, Hy, Hz, Ht. simpl in Hw. lia. }
        destruct Ho as [(-> & a & b & c' & d & r' & v & -> & Hv & Hl & Hh)
          |(-> & a & b & c' & d & a' & b' & c'' & d' & r' & v & v' & -> & Hv & Hh & Hv' & Hl)].
        * apply (IH (length r') ltac:(simpl in Hn; lia) r' eq_refl).
          apply (In0_after [a; b; c'; d]); [eapply Kx; eauto|exact H2].
        * apply (IH (length r') ltac:(simpl in Hn; lia) r' eq_refl).
          apply (In0_after [a'; b'; c''; d']); [eapply Kx; eauto|].
          apply (In0_after [92; 117]); [simpl; intros; lia|].
          apply (In0_after [a; b; c'; d]); [eapply Kx; eauto|exact H2].
    - destruct (c =? 34); [eauto|]. apply (IH (length s1) ltac:(simpl in Hn; lia) s1 eq_refl); [auto]. }
  destruct K as [o Ho]. exists o. split; auto. destruct o as [r|]; auto.
  apply consumeStr_inv in Ho as (b & Hb & ->).
  apply (In0_after (b ++ [34])).
  - intros c Hc ->. apply in_app_or in Hc as [Hc|Hc]; [apply (strbody_no0 _ Hb Hc)|].
    simpl in Hc. lia.
  - now rewrite <- app_assoc.
Qed.

(** ** zj_checkStr: what it accepts.  [strbody_set] is [strbody] without the
    escapes \uE000..\uFFFF (the bound 0xDFFFF in line 1240). *)
Inductive strbody_set : bytes -> Prop :=
| ss_nil : strbody_set []
| ss_plain c r : 32 <= c -> c <> 34 -> c <> 92 -> strbody_set r -> strbody_set (c :: r)
| ss_short c x r : short_escape c = Some x -> strbody_set r -> strbody_set (92 :: c :: r)
| ss_u a b c d v r : hex4 a b c d v -> ~ high_surrogate v -> v < 56320 ->
    strbody_set r -> strbody_set (92 :: 117 :: a :: b :: c :: d :: r)
| ss_pair a b c d a' b' c' d' v v' r : hex4 a b c d v -> high_surrogate v ->
    hex4 a' b' c' d' v' -> low_surrogate v' -> strbody_set r ->
    strbody_set (92 :: 117 :: a :: b :: c :: d :: 92 :: 117 :: a' :: b' :: c' :: d' :: r).

Lemma strbody_set_strbody b : strbody_set b -> strbody b.
Proof.
  induction 1; eauto using strbody_nil, strbody_plain, strbody_short, strbody_pair.
  eapply strbody_u; eauto. unfold low_surrogate. lia.
Qed.

Lemma rmap_Some n (r : res (option N)) l :
  (x <-? r ;; Ok (option_map (N.add n) x)) = Ok (Some l) -> exists k, r = Ok (Some k) /\ l = n + k.
Proof.
  intro H. apply rbind_Ok in H as (o & -> & H). destruct o as [k|]; [|discriminate].
  injection H as <-. eauto.
Qed.

Lemma checkStr_yes b r : strbody_set b ->
  zj_checkStr (b ++ 0 :: r) = Ok (Some (N.of_nat (length b))).
Proof.
  induction 1 as [|c s Hc Hq Hb H IH|c x s Hc H IH|a b c d v s Hv H1 H2 H IH
    |a b c d a' b' c' d' v v' s Hv H1 Hv' H2 H IH].
  - reflexivity.
  - cbn [zj_checkStr app].
    replace (c =? 0) with false by (symmetry; bools; lia).
    replace ((c <=? 31) || (c =? 34)) with false by (symmetry; bools; lia).
    replace (c =? 92) with false by (symmetry; bools; lia).
    rewrite IH. simpl. do 2 f_equal. lia.
  - cbn [zj_checkStr app]. change (92 =? 0) with false. change ((92 <=? 31) || (92 =? 34)) with false.
    change (92 =? 92) with true. cbv iota. rewrite (short_escape_facts _ _ Hc), IH.
    simpl. do 2 f_equal. lia.
  - cbn [zj_checkStr app]. change (92 =? 0) with false. change ((92 <=? 31) || (92 =? 34)) with false.
    change (92 =? 92) with true. change (simple_escape 117) with false.
    change (117 =? 117) with true. cbv iota.
    rewrite (u_escape_4 _ _ _ _ _ _ _ Hv) by (auto; lia). cbn [rbind]. rewrite IH.
    simpl. do 2 f_equal. lia.
  - cbn [zj_checkStr app]. change (92 =? 0) with false. change ((92 <=? 31) || (92 =? 34)) with false.
    change (92 =? 92) with true. change (simple_escape 117) with false.
    change (117 =? 117) with true. cbv iota.
    rewrite (u_escape_10 _ _ _ _ _ _ _ _ _ _ _ _ Hv H1 Hv' H2). cbn [rbind]. rewrite IH.
    simpl. do 2 f_equal. lia.
Qed.

Lemma checkStr_inv s l : zj_checkStr s = Ok (Some l) ->
  exists b r, strbody_set b /\ s = b ++ 0 :: r /\ l = N.of_nat (length b).
Proof.
  remember (length s) as n eqn:Hn. revert s l Hn.
  induction n as [n IH] using lt_wf_ind. intros s l Hn H.
  destruct s as [|c s1]; [discriminate|]. cbn [zj_checkStr] in H.
  destruct (c =? 0) eqn:E0.
  { injection H as <-. apply N.eqb_eq in E0. subst. exists [], s1. repeat split. constructor. }
  destruct ((c <=? 31) || (c =? 34)) eqn:E1; [discriminate|].
  destruct (c =? 92) eqn:E2.
  - apply N.eqb_eq in E2. subst c. destruct s1 as [|e s2]; [discriminate|].
    destruct (simple_escape e) eqn:E3.
    + apply simple_escape_spec in E3 as [x Hx]. apply rmap_Some in H as (k & H & ->).
      destruct (IH (length s2) ltac:(simpl in Hn; lia) s2 _ eq_refl H) as (b & r & Hb & -> & ->).
      exists (92 :: e :: b), r. repeat split; [eapply ss_short; eauto|]. simpl. lia.
    + destruct (e =? 117) eqn:E4; [|discriminate]. apply N.eqb_eq in E4. subst e.
      apply rbind_Ok in H as (o & Ho & H). destruct o as [k|]; [|discriminate].
      apply u_escape_inv in Ho; [|lia].
      destruct Ho as [(-> & a & b & c & d & r' & v & -> & Hv & Hl & Hh)
        |(-> & a & b & c & d & a' & b' & c' & d' & r' & v & v' & -> & Hv & Hh & Hv' & Hl)].
      * apply rmap_Some in H as (k & H & ->).
        destruct (IH (length r') ltac:(simpl in Hn; lia) r' _ eq_refl H) as (q & r & Hq & -> & ->).
        exists (92 :: 117 :: a :: b :: c :: d :: q), r. repeat split.
        -- eapply ss_u; eauto. pose proof (hex4_lt _ _ _ _ _ Hv). lia.
        -- simpl. lia.
      * apply rmap_Some in H as (k & H & ->).
        destruct (IH (length r') ltac:(simpl in Hn; lia) r' _ eq_refl H) as (q & r & Hq & -> & ->).
        exists (92 :: 117 :: a :: b :: c :: d :: 92 :: 117 :: a' :: b' :: c' :: d' :: q), r.
        repeat split; [eapply ss_pair; eauto|]. simpl. lia.
  - apply rmap_Some in H as (k & H & ->).
    destruct (IH (length s1) ltac:(simpl in Hn; lia) s1 _ eq_refl H) as (b & r & Hb & -> & ->).
    exists (c :: b), r. bools. repeat split; [constructor; auto; lia|]. simpl. lia.
Qed.

Lemma checkStr_safe s : In 0 s -> exists o, zj_checkStr s = Ok o.
Proof.
  remember (length s) as n eqn:Hn. revert s Hn.
  induction n as [n IH] using lt_wf_ind. intros s Hn H.
  destruct s as [|c s1]; [destruct H|]. cbn [zj_checkStr].
  destruct (c =? 0) eqn:E0; [eauto|].
  destruct ((c <=? 31) || (c =? 34)) eqn:E1; [eauto|].
  assert (H' : In 0 s1) by (destruct H; auto; bools; congruence).
  destruct (c =? 92) eqn:E2.
  - destruct s1 as [|e s2]; [destruct H'|].
    destruct (simple_escape e) eqn:E3.
    + destruct (IH (length s2) ltac:(simpl in Hn; lia) s2 eq_refl) as [o Ho]; [|rewrite Ho; simpl; eauto].
      destruct H'; auto. subst. discriminate.
    + destruct (e =? 117) eqn:E4; [|eauto].
      assert (H2 : In 0 s2) by (destruct H'; auto; subst; discriminate).
      destruct (u_escape_safe 917503 _ H2) as [o Ho]. rewrite Ho. simpl.
      destruct o as [k|]; [|eauto]. apply u_escape_inv in Ho; [|lia].
      assert (Kx : forall a b c d v, hex4 a b c d v -> forall z, In z [a; b; c; d] -> z <> 0).
      { intros ? ? ? ? ? (x & y & z & t & Hx & Hy & Hz & Ht & _) w Hw.
        apply hexval_nonzero in Hx, Hy, Hz, Ht. simpl in Hw. lia. }
      destruct Ho as [(-> & a & b & c' & d & r' & v & -> & Hv & Hl & Hh)
        |(-> & a & b & c' & d & a' & b' & c'' & d' & r' & v & v' & -> & Hv & Hh & Hv' & Hl)].
      * destruct (IH (length r') ltac:(simpl in Hn; lia) r' eq_refl) as [o Ho]; [|rewrite Ho; simpl; eauto].
        apply (In0_after [a; b; c'; d]); [eapply Kx; eauto|exact H2].
      * destruct (IH (length r') ltac:(simpl in Hn; lia) r' eq_refl) as [o Ho]; [|rewrite Ho; simpl; eauto].
        apply (In0_after [a'; b'; c''; d']); [eapply Kx; eauto|].
        apply (In0_after [92; 117]); [simpl; intros; lia|].
        apply (In0_after [a; b; c'; d]); [eapply Kx; eauto|exact H2].
  - destruct (IH (length s1) ltac:(simpl in Hn; lia) s1 eq_refl) as [o Ho]; [auto|rewrite Ho; simpl; eauto].
Qed.

(** ** Numbers *)
Lemma digitb_spec c : digitb c = true <-> is_digit c.
Proof. unfold digitb, is_digit. bools. tauto. Qed.

Lemma skip_digits_app ds c r : Forall is_digit ds -> ~ is_digit c ->
  skip_digits (ds ++ c :: r) = Ok (c :: r).
Proof.
  induction 1 as [|x ds Hx H IH]; intro Hc; simpl.
  - destruct (digitb c) eqn:E; auto. apply digitb_spec in E. contradiction.
  - apply digitb_spec in Hx. rewrite Hx. auto.
Qed.
Lemma skip_digits_inv s r : skip_digits s = Ok r ->
  exists ds, Forall is_digit ds /\ s = ds ++ r /\ exists c r', r = c :: r' /\ ~ is_digit c.
Proof.
  induction s as [|x s IH]; simpl; [discriminate|]. destruct (digitb x) eqn:E; intro H.
  - destruct (IH H) as (ds & Hd & -> & Hr). exists (x :: ds). repeat split; auto.
    constructor; auto. now apply digitb_spec.
  - injection H as <-. exists []. repeat split; auto. exists x, s. split; auto.
    intro K. apply digitb_spec in K. congruence.
Qed.
Lemma skip_digits_safe s : In 0 s -> exists r, skip_digits s = Ok r /\ In 0 r.
Proof.
  induction s as [|x s IH]; simpl; [tauto|]. intro H.
  destruct (digitb x) eqn:E; [|exists (x :: s); simpl; auto].
  apply IH. destruct H; auto. subst. discriminate.
Qed.

Lemma digits1_app ds c r : ds <> [] -> Forall is_digit ds -> ~ is_digit c ->
  digits1 (ds ++ c :: r) = Ok (Some (c :: r)).
Proof.
  intros H0 H Hc. destruct H as [|x ds Hx H]; [congruence|]. simpl.
  apply digitb_spec in Hx. rewrite Hx, skip_digits_app by auto. reflexivity.
Qed.
Lemma digits1_inv s r : digits1 s = Ok (Some r) ->
  exists ds, ds <> [] /\ Forall is_digit ds /\ s = ds ++ r /\ exists c r', r = c :: r' /\ ~ is_digit c.
Proof.
  destruct s as [|x s]; simpl; [discriminate|]. destruct (digitb x) eqn:E; [|discriminate].
  intro H. apply rbind_Ok in H as (r' & H & H2). injection H2 as ->.
  apply skip_digits_inv in H as (ds & Hd & -> & Hr).
  exists (x :: ds). repeat split; auto; [congruence|]. constructor; auto. now apply digitb_spec.
Qed.
Lemma digits1_safe s : In 0 s -> exists o, digits1 s = Ok o /\
  match o with Some r => In 0 r | None => True end.
Proof.
  destruct s as [|x s]; simpl; [tauto|]. intro H.
  destruct (digitb x) eqn:E; [|exists None; auto].
  destruct (skip_digits_safe s) as (r & E2 & Hr); [destruct H; auto; subst; discriminate|].
  rewrite E2. exists (Some r). auto.
Qed.

(** The character after a number must not continue it. *)
Definition num_stop (r : bytes) : Prop :=
  exists c r', r = c :: r' /\ ~ is_digit c /\ c <> 46 /\ c <> 101 /\ c <> 69.

Lemma consumeNum_yes n r : number n -> num_stop r -> zj_consumeNum (n ++ r) = Ok (Some r).
Proof.
  intros (sg & i & f & e & Hsg & Hi & Hf & He & ->) (c & r' & -> & Hc & Hdot & He1 & He2).
  assert (Kexp : forall q, q = e ++ c :: r' ->
    match q with
    | [] => Err EOob
    | e :: r4 => if (e =? 101) || (e =? 69) then
        match r4 with [] => Err EOob
        | g :: r5 => digits1 (if (g =? 45) || (g =? 43) then r5 else r4) end
      else Ok (Some q) end = Ok (Some (c :: r'))).
  { intros q ->. destruct He as [->|(e0 & sg' & ds & He0 & Hsg' & Hne & Hds & ->)].
    - simpl. replace ((c =? 101) || (c =? 69)) with false by (symmetry; bools; auto). auto.
    - cbn [app]. replace ((e0 =? 101) || (e0 =? 69)) with true by (symmetry; bools; auto).
      destruct Hds as [|d0 ds Hd0 Hds]; [congruence|].
      destruct Hsg' as [->|[->| ->]]; cbn [app].
      + replace ((d0 =? 45) || (d0 =? 43)) with false
          by (symmetry; bools; unfold is_digit in Hd0; lia).
        apply (digits1_app (d0 :: ds)); auto.
      + apply (digits1_app (d0 :: ds)); auto.
      + apply (digits1_app (d0 :: ds)); auto. }
  assert (Hehd : exists y q, e ++ c :: r' = y :: q /\ ~ is_digit y /\ y <> 46).
  { destruct He as [->|(e0 & sg' & ds & He0 & _ & _ & _ & ->)]; simpl; eauto.
    exists e0, ((sg' ++ ds) ++ c :: r'). repeat split; auto; unfold is_digit; lia. }
  assert (Kfrac : forall q, q = f ++ e ++ c :: r' ->
    (p <-? zj_consume 46 q ;;
     f <-? match p with Some s3 => digits1 s3 | None => Ok (Some q) end ;;
     match f with
     | None => Ok None
     | Some s4 => match s4 with
       | [] => Err EOob
       | e :: r4 => if (e =? 101) || (e =? 69) then
         match r4 with [] => Err EOob
         | g :: r5 => digits1 (if (g =? 45) || (g =? 43) then r5 else r4) end
       else Ok (Some s4) end
     end) = Ok (Some (c :: r'))).
  { intros q ->. destruct Hehd as (y & q & Hq & Hy & Hy46).
    destruct Hf as [->|(ds & Hne & Hds & ->)].
    - simpl app. rewrite Hq. rewrite consume_no by auto. cbn [rbind].
      exact (Kexp (y :: q) (eq_sym Hq)).
    - cbn [app]. rewrite consume_yes. cbn [rbind]. rewrite Hq.
      rewrite digits1_app by auto. cbn [rbind]. exact (Kexp (y :: q) (eq_sym Hq)). }
  assert (Hfhd : exists y q, f ++ e ++ c :: r' = y :: q /\ ~ is_digit y).
  { destruct Hehd as (y & q & Hq & Hy & _).
    destruct Hf as [->|(ds & _ & _ & ->)]; simpl; rewrite ?Hq; eauto.
    exists 46, (ds ++ y :: q). split; auto. unfold is_digit. lia. }
  assert (Kint : forall q, q = i ++ f ++ e ++ c :: r' ->
    (match q with
     | [] => Err EOob
     | d :: r1 => if d =? 48 then Ok (Some r1)
                  else if (49 <=? d) && (d <=? 57) then r' <-? skip_digits r1 ;; Ok (Some r')
                  else Ok None
     end) = Ok (Some (f ++ e ++ c :: r'))).
  { intros q ->. destruct Hi as [->|(d & ds & Hd & Hds & ->)].
    - reflexivity.
    - cbn [app]. replace (d =? 48) with false by (symmetry; bools; lia).
      replace ((49 <=? d) && (d <=? 57)) with true by (symmetry; bools; lia).
      destruct Hfhd as (y & q & -> & Hy). rewrite skip_digits_app by auto. reflexivity. }
  assert (Hihd : exists y q, i ++ f ++ e ++ c :: r' = y :: q /\ y <> 45).
  { destruct Hi as [->|(d & ds & Hd & Hds & ->)]; cbn [app].
    - do 2 eexists; split; [reflexivity|]. lia.
    - do 2 eexists; split; [reflexivity|]. lia. }
  unfold zj_consumeNum. rewrite <- !app_assoc.
  destruct Hsg as [->| ->]; cbn [app].
  - destruct Hihd as (y & q & Hq & Hy). rewrite Hq.
    replace (y =? 45) with false by (symmetry; bools; auto).
    rewrite (Kint (y :: q) (eq_sym Hq)). cbn [rbind]. exact (Kfrac _ eq_refl).
  - change (45 =? 45) with true. cbv iota.
    rewrite (Kint _ eq_refl). cbn [rbind]. exact (Kfrac _ eq_refl).
Qed.

Lemma consumeNum_inv s r : zj_consumeNum s = Ok (Some r) ->
  exists n, number n /\ s = n ++ r.
Proof.
  unfold zj_consumeNum. destruct s as [|c r0]; [discriminate|].
  intro H. cbv zeta in H.
  assert (Hs : exists sg s1, (sg = [] \/ sg = [45]) /\ c :: r0 = sg ++ s1 /\
                (if c =? 45 then r0 else c :: r0) = s1).
  { destruct (c =? 45) eqn:E.
    - apply N.eqb_eq in E. subst. exists [45], r0. auto.
    - exists [], (c :: r0). auto. }
  destruct Hs as (sg & s1 & Hsg & Hs1 & Eq). rewrite Eq in H. rewrite Hs1. clear Eq Hs1 c r0.
  apply rbind_Ok in H as (o1 & H1 & H). destruct o1 as [s2|]; [|discriminate].
  assert (Hi : exists i, int_part i /\ s1 = i ++ s2).
  { destruct s1 as [|d r1]; [discriminate|]. destruct (d =? 48) eqn:E1.
    - injection H1 as ->. apply N.eqb_eq in E1. subst. exists [48]. split; [left|]; auto.
    - destruct ((49 <=? d) && (d <=? 57)) eqn:E2; [|discriminate].
      apply rbind_Ok in H1 as (x & H1 & H2). injection H2 as ->.
      apply skip_digits_inv in H1 as (ds & Hds & -> & _). bools.
      exists (d :: ds). split; auto. right. exists d, ds. auto. }
  destruct Hi as (i & Hi & ->). clear H1.
  apply rbind_Ok in H as (o2 & H2 & H). apply rbind_Ok in H as (o3 & H3 & H).
  destruct o3 as [s4|]; [|discriminate].
  assert (Hf : exists f, frac_part f /\ s2 = f ++ s4).
  { destruct o2 as [s3|].
    - apply consume_inv in H2. subst s2. apply digits1_inv in H3 as (ds & Hne & Hds & -> & _).
      exists (46 :: ds). split; auto. right. exists ds. auto.
    - injection H3 as ->. exists []. split; auto. left. auto. }
  destruct Hf as (f & Hf & ->). clear H2 H3.
  assert (He : exists e, exp_part e /\ s4 = e ++ r).
  { destruct s4 as [|e r4]; [discriminate|].
    destruct ((e =? 101) || (e =? 69)) eqn:E.
    - destruct r4 as [|g r5]; [discriminate|].
      destruct ((g =? 45) || (g =? 43)) eqn:E2.
      + apply digits1_inv in H as (ds & Hne & Hds & -> & _).
        exists (e :: [g] ++ ds). split; auto. right. exists e, [g], ds. bools.
        repeat split; auto. destruct E2; subst; auto.
      + apply digits1_inv in H as (ds & Hne & Hds & -> & _).
        exists (e :: [] ++ ds). split; auto. right. exists e, [], ds. bools. repeat split; auto.
    - injection H as <-. exists []. split; auto. left. auto. }
  destruct He as (e & He & ->).
  exists (sg ++ i ++ f ++ e). split.
  - exists sg, i, f, e. auto.
  - now rewrite <- !app_assoc.
Qed.

Lemma number_nonempty n : number n -> n <> [].
Proof.
  intros (sg & i & f & e & _ & Hi & _ & _ & ->) H.
  apply app_eq_nil in H as [_ H]. apply app_eq_nil in H as [H _].
  destruct Hi as [->|(d & ds & _ & _ & ->)]; discriminate.
Qed.
Lemma number_chars n : number n ->
  Forall (fun c => is_digit c \/ c = 45 \/ c = 43 \/ c = 46 \/ c = 101 \/ c = 69) n.
Proof.
  intros (sg & i & f & e & Hsg & Hi & Hf & He & ->).
  assert (D : forall l, Forall is_digit l ->
    Forall (fun c => is_digit c \/ c = 45 \/ c = 43 \/ c = 46 \/ c = 101 \/ c = 69) l).
  { intros l Hl. eapply Forall_impl; [|exact Hl]. simpl. auto. }
  assert (C : forall c l, is_digit c \/ c = 45 \/ c = 43 \/ c = 46 \/ c = 101 \/ c = 69 ->
    Forall (fun c => is_digit c \/ c = 45 \/ c = 43 \/ c = 46 \/ c = 101 \/ c = 69) l ->
    Forall (fun c => is_digit c \/ c = 45 \/ c = 43 \/ c = 46 \/ c = 101 \/ c = 69) (c :: l)).
  { intros; constructor; auto. }
  rewrite !Forall_app. repeat split.
  - destruct Hsg as [->| ->]; auto.
  - destruct Hi as [->|(d & ds & Hd & Hds & ->)]; apply C; auto; left; unfold is_digit; lia.
  - destruct Hf as [->|(ds & _ & Hds & ->)]; [constructor|]. apply C; auto 6.
  - destruct He as [->|(e0 & sg' & ds & He0 & Hsg' & _ & Hds & ->)]; [constructor|].
    apply C; [lia|]. rewrite Forall_app. split; auto.
    destruct Hsg' as [->|[->| ->]]; auto; apply C; auto.
Qed.
Lemma number_no0 n : number n -> ~ In 0 n.
Proof.
  intros H I. apply number_chars in H. rewrite Forall_forall in H. apply H in I.
  unfold is_digit in I. lia.
Qed.
Lemma number_head n : number n -> exists c r, n = c :: r /\ (c = 45 \/ is_digit c).
Proof.
  intros (sg & i & f & e & Hsg & Hi & _ & _ & ->).
  destruct Hsg as [->| ->]; [|do 2 eexists; split; [reflexivity|]; auto].
  destruct Hi as [->|(d & ds & Hd & _ & ->)]; do 2 eexists; (split; [reflexivity|]);
    right; unfold is_digit; lia.
Qed.

Lemma consumeNum_safe s : In 0 s -> exists o, zj_consumeNum s = Ok o /\
  match o with Some r => In 0 r | None => True end.
Proof.
  intro H. assert (K : exists o, zj_consumeNum s = Ok o).
  { destruct s as [|c r0]; [destruct H|]. unfold zj_consumeNum. cbv zeta.
    assert (H1 : In 0 (if c =? 45 then r0 else c :: r0)).
    { destruct (c =? 45) eqn:E; auto. destruct H; auto. subst. discriminate. }
    destruct (if c =? 45 then r0 else c :: r0) as [|d r1]; [destruct H1|].
    assert (Ki : exists o, (if d =? 48 then Ok (Some r1)
        else if (49 <=? d) && (d <=? 57) then r' <-? skip_digits r1 ;; Ok (Some r')
        else Ok None) = Ok o /\ match o with Some r => In 0 r | None => True end).
    { destruct (d =? 48) eqn:E1.
      - eexists; split; [reflexivity|]. destruct H1; auto. subst; discriminate.
      - destruct ((49 <=? d) && (d <=? 57)) eqn:E2; [|exists None; auto].
        destruct (skip_digits_safe r1) as (r & E & Hr); [destruct H1; auto; subst; discriminate|].
        rewrite E. exists (Some r). auto. }
    destruct Ki as (o1 & -> & H2). cbn [rbind]. destruct o1 as [s2|]; [|eauto].
    assert (Kp : exists p, zj_consume 46 s2 = Ok p /\
              match p with Some s3 => In 0 s3 | None => True end).
    { destruct s2 as [|x s2]; [destruct H2|]. unfold zj_consume. eexists; split; [reflexivity|].
      destruct (x =? 46) eqn:E; auto. destruct H2; auto. subst; discriminate. }
    destruct Kp as (p & -> & Hp). cbn [rbind].
    assert (Kf : exists o, match p with Some s3 => digits1 s3 | None => Ok (Some s2) end = Ok o /\
       match o with Some r => In 0 r | None => True end).
    { destruct p as [s3|]; [now apply digits1_safe | exists (Some s2); auto]. }
    destruct Kf as (o2 & -> & H3). cbn [rbind]. destruct o2 as [s4|]; [|eauto].
    destruct s4 as [|e r4]; [destruct H3|].
    destruct ((e =? 101) || (e =? 69)) eqn:E; [|eauto].
    assert (H4 : In 0 r4) by (destruct H3; auto; subst; discriminate).
    destruct r4 as [|g r5]; [destruct H4|].
    destruct ((g =? 45) || (g =? 43)) eqn:E2.
    - destruct (digits1_safe r5) as (o & -> & _); eauto. destruct H4; auto; subst; discriminate.
    - destruct (digits1_safe (g :: r5)) as (o & -> & _); eauto. }
  destruct K as [o Ho]. exists o. split; auto. destruct o as [r|]; auto.
  apply consumeNum_inv in Ho as (n & Hn & ->). apply (In0_after n); auto.
  intros c Hc ->. apply (number_no0 _ Hn Hc).
Qed.

Lemma num_stop_0 r : num_stop (0 :: r).
Proof. exists 0, r. unfold is_digit. repeat split; auto; lia. Qed.

Lemma checkNum_yes n r : number n -> zj_checkNum (n ++ 0 :: r) = Ok (Some (N.of_nat (length n))).
Proof.
  intro H. unfold zj_checkNum. rewrite consumeNum_yes by (auto using num_stop_0). cbn [rbind].
  rewrite consume_yes. cbn [rbind]. do 2 f_equal. rewrite app_length. simpl. lia.
Qed.
Lemma checkNum_inv s l : zj_checkNum s = Ok (Some l) ->
  exists n r, number n /\ s = n ++ 0 :: r /\ l = N.of_nat (length n).
Proof.
  unfold zj_checkNum. intro H. apply rbind_Ok in H as (o & H1 & H).
  destruct o as [s'|]; [|discriminate]. apply consumeNum_inv in H1 as (n & Hn & ->).
  apply rbind_Ok in H as (z & H2 & H). destruct z as [r|]; [|discriminate].
  apply consume_inv in H2. subst s'. injection H as <-.
  exists n, r. repeat split; auto. rewrite app_length. simpl. lia.
Qed.
Lemma checkNum_safe s : In 0 s -> exists o, zj_checkNum s = Ok o.
Proof.
  intro H. unfold zj_checkNum. destruct (consumeNum_safe _ H) as ([s'|] & -> & H2); simpl; [|eauto].
  destruct s' as [|x s']; [destruct H2|]. simpl. destruct (x =? 0); eauto.
Qed.

(** A C string: bytes without 0, then a 0. *)
Lemma split_at_0 (b r b' r' : bytes) : ~ In 0 b -> ~ In 0 b' -> b ++ 0 :: r = b' ++ 0 :: r' ->
  b = b' /\ r = r'.
Proof.
  revert b'. induction b as [|x b IH]; intros b' H H' E; destruct b' as [|x' b'].
  - injection E as <-. auto.
  - injection E as <- _. exfalso. apply H'. left; auto.
  - injection E as -> _. exfalso. apply H. left; auto.
  - injection E as <- E. apply IH in E as [-> ->]; auto; intro; [apply H|apply H']; right; auto.
Qed.

Lemma checkStr_iff b r l : ~ In 0 b ->
  (zj_checkStr (b ++ 0 :: r) = Ok (Some l) <-> strbody_set b /\ l = N.of_nat (length b)).
Proof.
  intro H. split.
  - intro E. apply checkStr_inv in E as (b' & r' & Hb & Eq & ->).
    apply split_at_0 in Eq as [-> _]; auto. apply strbody_no0. now apply strbody_set_strbody.
  - intros [Hb ->]. now apply checkStr_yes.
Qed.
Lemma checkNum_iff b r l : ~ In 0 b ->
  (zj_checkNum (b ++ 0 :: r) = Ok (Some l) <-> number b /\ l = N.of_nat (length b)).
Proof.
  intro H. split.
  - intro E. apply checkNum_inv in E as (b' & r' & Hb & Eq & ->).
    apply split_at_0 in Eq as [-> _]; auto. now apply number_no0.
  - intros [Hb ->]. now apply checkNum_yes.
Qed.

Lemma cstr_of_app b r : ~ In 0 b -> cstr_of (b ++ 0 :: r) = Ok b.
Proof.
  induction b as [|x b IH]; intro H; simpl; [reflexivity|].
  replace (x =? 0) with false by (symmetry; apply N.eqb_neq; intros ->; apply H; left; auto).
  rewrite IH; auto. intro; apply H; right; auto.
Qed.
