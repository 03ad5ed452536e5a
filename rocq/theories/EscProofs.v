(** Escaping and unescaping. *)
From Verif Require Import Base Spec Lex LexProofs Alloc Mem MemProofs Api Dom StrBuf StringifyProofs.

(** ** Bits *)
Lemma lor_add m a b : b < 2 ^ m -> a mod 2 ^ m = 0 -> N.lor a b = a + b.
Proof.
  intros Hb Ha. rewrite <- N.lxor_lor, <- N.add_nocarry_lxor; auto; apply N.bits_inj; intro i; rewrite N.land_spec, N.bits_0;
  (destruct (N.lt_ge_cases i m) as [L|L];
    [rewrite <- (N.mod_pow2_bits_low a m i), Ha, N.bits_0 by auto; reflexivity|
     rewrite <- (N.mod_small b (2 ^ m) Hb), N.mod_pow2_bits_high by auto; apply andb_false_r]).
Qed.
Lemma land255 x : x < 256 -> N.land x 255 = x.
Proof. intro H. change 255 with (N.ones 8). rewrite N.land_ones. now apply N.mod_small. Qed.
Lemma land63 x : N.land x 63 = x mod 64.
Proof. change 63 with (N.ones 6). now rewrite N.land_ones. Qed.
Lemma shr6 x : N.shiftr x 6 = x / 64. Proof. now rewrite N.shiftr_div_pow2. Qed.
Lemma shr12 x : N.shiftr x 12 = x / 4096. Proof. now rewrite N.shiftr_div_pow2. Qed.
Lemma shr18 x : N.shiftr x 18 = x / 262144. Proof. now rewrite N.shiftr_div_pow2. Qed.

Lemma addUTF8_utf8 cp : cp < 1114112 -> zj_addUTF8 cp = utf8 cp.
Proof.
  intro H. unfold zj_addUTF8, utf8. cbv zeta.
  assert (M1 : cp mod 64 < 64) by (apply N.mod_lt; lia).
  assert (M2 : (cp / 64) mod 64 < 64) by (apply N.mod_lt; lia).
  assert (M3 : (cp / 4096) mod 64 < 64) by (apply N.mod_lt; lia).
  destruct (N.leb_spec cp 127) as [L1|L1].
  { replace (cp <? 128) with true by (symmetry; bools; lia). now rewrite !(land255 cp) by lia. }
  replace (cp <? 128) with false by (symmetry; bools; lia).
  destruct (N.leb_spec cp 2047) as [L2|L2].
  { replace (cp <? 2048) with true by (symmetry; bools; lia).
    assert (cp / 64 < 32) by (apply N.div_lt_upper_bound; lia).
    rewrite shr6, land63, (land255 (cp / 64)) by lia.
    rewrite (lor_add 6 192) by (auto; simpl; lia). rewrite (lor_add 6 128) by (auto; simpl; lia).
    now rewrite !land255 by lia. }
  replace (cp <? 2048) with false by (symmetry; bools; lia).
  destruct (N.leb_spec cp 65535) as [L3|L3].
  { replace (cp <? 65536) with true by (symmetry; bools; lia).
    assert (cp / 4096 < 16) by (apply N.div_lt_upper_bound; lia).
    rewrite shr6, shr12, !land63, (land255 (cp / 4096)) by lia.
    rewrite (lor_add 5 224) by (auto; simpl; lia). rewrite !(lor_add 6 128) by (auto; simpl; lia).
    now rewrite !land255 by lia. }
  replace (cp <? 65536) with false by (symmetry; bools; lia).
  assert (cp / 262144 < 8) by (apply N.div_lt_upper_bound; lia).
  rewrite shr6, shr12, shr18, !land63, (land255 (cp / 262144)) by lia.
  rewrite (lor_add 4 240) by (auto; simpl; lia). rewrite !(lor_add 6 128) by (auto; simpl; lia).
  now rewrite !land255 by lia.
Qed.

Lemma hexU_val cp c x : hexval c = Some x -> cp < 65536 -> hexU cp c = 16 * cp + x.
Proof.
  intros Hx Hcp. pose proof (hexval_lt _ _ Hx). unfold hexU.
  assert (E : zj_hexCodePointForUnEscape c = x).
  { revert Hx. unfold hexval, zj_hexCodePointForUnEscape.
    destruct ((48 <=? c) && (c <=? 57)); [congruence|].
    destruct ((65 <=? c) && (c <=? 70)) eqn:E2; [intro Hx; injection Hx as <-; bools; lia|].
    destruct ((97 <=? c) && (c <=? 102)) eqn:E3; [|discriminate]. intro Hx. injection Hx as <-. bools.
    unfold schar. replace (c <? 128) with true by (symmetry; bools; lia).
    rewrite Z.mod_small by lia. lia. }
  rewrite E, N.shiftl_mul_pow2. change (2 ^ 4) with 16. unfold u32, two32.
  rewrite (N.mod_small (cp * 16)) by lia. rewrite N.mod_small by lia. lia.
Qed.
Lemma hex4U_val a b c d v : hex4 a b c d v -> hex4U a b c d = v.
Proof.
  intros (x & y & z & t & Hx & Hy & Hz & Ht & ->). unfold hex4U.
  pose proof (hexval_lt _ _ Hx). pose proof (hexval_lt _ _ Hy). pose proof (hexval_lt _ _ Hz).
  rewrite (hexU_val 0 a x), (hexU_val _ b y), (hexU_val _ c z), (hexU_val _ d t) by (auto; lia). lia.
Qed.
Lemma pair_cp_val v v' : high_surrogate v -> low_surrogate v' ->
  pair_cp v v' = 65536 + (v - 55296) * 1024 + (v' - 56320).
Proof.
  unfold high_surrogate, low_surrogate. intros H H'. unfold pair_cp, u32, two32.
  replace ((v + 4294967296 - 55296) mod 4294967296) with (v - 55296).
  2: { replace (v + 4294967296 - 55296) with (v - 55296 + 1 * 4294967296) by lia. rewrite N.mod_add by lia.
       symmetry. apply N.mod_small. lia. }
  replace ((v' + 4294967296 - 56320) mod 4294967296) with (v' - 56320).
  2: { replace (v' + 4294967296 - 56320) with (v' - 56320 + 1 * 4294967296) by lia. rewrite N.mod_add by lia.
       symmetry. apply N.mod_small. lia. }
  rewrite N.shiftl_mul_pow2. change (2 ^ 10) with 1024. rewrite (N.mod_small ((v - 55296) * 1024)) by lia.
  rewrite (lor_add 10); [|change (2 ^ 10) with 1024; lia|change (2 ^ 10) with 1024; apply N.mod_mul; lia].
  rewrite N.mod_small; lia.
Qed.
Lemma unescape1_short c x : short_escape c = Some x -> unescape1 c = Some x.
Proof.
  unfold short_escape, unescape1.
  repeat (match goal with |- context [c =? ?k] => destruct (N.eqb_spec c k); [subst c; vm_compute; auto|] end).
  discriminate.
Qed.
Lemma utf8_short cp : (length (utf8 cp) <= 4)%nat.
Proof. unfold utf8. repeat match goal with |- context [if ?b then _ else _] => destruct b end; simpl; lia. Qed.

(** Unescaping a valid string body gives the bytes it denotes, whatever follows. *)
Lemma unEscape_decodes b o : decodes b o -> forall r, zj_unEscapeStr (b ++ r) (Z.of_N (lenN b)) = Ok o.
Proof.
  assert (Pos : forall (x : N) l, (Z.of_N (lenN (x :: l)) <=? 0)%Z = false).
  { intros. apply Z.leb_gt. rewrite lenN_cons. lia. }
  assert (Sub : forall (x : N) l, (Z.of_N (lenN (x :: l)) - 1)%Z = Z.of_N (lenN l)).
  { intros. rewrite lenN_cons. lia. }
  induction 1 as [|c s o Hc Hq Hb H IH|c x s o Hc H IH|a b c d v s o Hv H1 H2 H IH
    |a b c d a' b' c' d' v v' s o Hv H1 Hv' H2 H IH]; intro r.
  - simpl app. change (Z.of_N (lenN (@nil N))) with 0%Z. destruct r; reflexivity.
  - cbn [app zj_unEscapeStr]. rewrite Pos. replace (c =? 92) with false by (symmetry; bools; lia).
    rewrite Sub, IH. reflexivity.
  - cbn [app zj_unEscapeStr]. rewrite Pos. change (92 =? 92) with true. cbv iota.
    rewrite (unescape1_short _ _ Hc).
    replace (Z.of_N (lenN (92 :: c :: s)%N) - 2)%Z with (Z.of_N (lenN s)) by (rewrite !lenN_cons; lia).
    rewrite IH. reflexivity.
  - cbn [app zj_unEscapeStr]. rewrite Pos. change (92 =? 92) with true. cbv iota.
    change (unescape1 117) with (@None N). cbv iota. change (117 =? 117) with true. cbv iota zeta.
    rewrite (hex4U_val _ _ _ _ _ Hv).
    replace ((55296 <=? v) && (v <=? 56319)) with false by (symmetry; unfold high_surrogate in H1; bools; lia).
    replace (Z.of_N (lenN (92 :: 117 :: a :: b :: c :: d :: s)%N) - 6)%Z with (Z.of_N (lenN s)) by (rewrite !lenN_cons; lia).
    rewrite IH. cbn [rbind]. rewrite addUTF8_utf8; auto. pose proof (hex4_lt _ _ _ _ _ Hv). lia.
  - cbn [app zj_unEscapeStr]. rewrite Pos. change (92 =? 92) with true. cbv iota.
    change (unescape1 117) with (@None N). cbv iota. change (117 =? 117) with true. cbv iota zeta.
    rewrite (hex4U_val _ _ _ _ _ Hv), (hex4U_val _ _ _ _ _ Hv').
    replace ((55296 <=? v) && (v <=? 56319)) with true by (symmetry; unfold high_surrogate in H1; bools; lia).
    replace (Z.of_N (lenN (92 :: 117 :: a :: b :: c :: d :: 92 :: 117 :: a' :: b' :: c' :: d' :: s)%N) - 12)%Z
      with (Z.of_N (lenN s)) by (rewrite !lenN_cons; lia).
    rewrite IH. cbn [rbind]. rewrite pair_cp_val by auto. rewrite addUTF8_utf8; auto.
    unfold high_surrogate, low_surrogate in *. lia.
Qed.
(** The decoded bytes need no more room than the body. *)
Lemma decodes_short b o : decodes b o -> lenN o <= lenN b.
Proof.
  induction 1; rewrite ?lenN_app, ?lenN_cons in *; try lia.
  - pose proof (utf8_short v). unfold lenN at 1. lia.
  - match goal with |- context [utf8 ?x] => pose proof (utf8_short x) end. unfold lenN at 1. lia.
Qed.
Lemma decodes_fun b o : decodes b o -> forall o', decodes b o' -> o = o'.
Proof.
  intros H o' H'. pose proof (unEscape_decodes _ _ H []) as E. pose proof (unEscape_decodes _ _ H' []) as E'. congruence.
Qed.

(** ** Escaping *)
Lemma hexdig_val x : x < 16 -> hexval (hexdig x) = Some x.
Proof.
  intro H. unfold hexdig, hexval. destruct (N.ltb_spec x 10).
  - replace ((48 <=? 48 + x) && (48 + x <=? 57)) with true by (symmetry; bools; lia). f_equal. lia.
  - replace ((48 <=? 87 + x) && (87 + x <=? 57)) with false by (symmetry; bools; lia).
    replace ((65 <=? 87 + x) && (87 + x <=? 70)) with false by (symmetry; bools; lia).
    replace ((97 <=? 87 + x) && (87 + x <=? 102)) with true by (symmetry; bools; lia). f_equal. lia.
Qed.
Lemma u00_hex4 c : c < 32 -> hex4 48 48 (hexdig (c / 16)) (hexdig (c mod 16)) c.
Proof.
  intro H. assert (c / 16 < 16) by (apply N.div_lt_upper_bound; lia).
  assert (c mod 16 < 16) by (apply N.mod_lt; lia).
  exists 0, 0, (c / 16), (c mod 16). rewrite !hexdig_val by auto. repeat split; auto.
  pose proof (N.div_mod c 16). lia.
Qed.
Definition esc_char (c : N) : bytes := firstn (N.to_nat (zj_escapeChars_Len c)) (zj_escapeChars_Str c).
Lemma esc_char_cases c :
  (exists e, short_escape e = Some c /\ esc_char c = [92; e] /\ zj_escapeChars_Len c = 2) \/
  (c < 32 /\ esc_char c = u00 c /\ zj_escapeChars_Len c = 6) \/
  (32 <= c /\ c <> 34 /\ c <> 92 /\ esc_char c = [c] /\ zj_escapeChars_Len c = 1).
Proof.
  unfold esc_char, zj_escapeChars_Len, zj_escapeChars_Str.
  destruct (N.eqb_spec c 8); [subst; left; exists 98; repeat split|].
  destruct (N.eqb_spec c 9); [subst; left; exists 116; repeat split|].
  destruct (N.eqb_spec c 10); [subst; left; exists 110; repeat split|].
  destruct (N.eqb_spec c 12); [subst; left; exists 102; repeat split|].
  destruct (N.eqb_spec c 13); [subst; left; exists 114; repeat split|].
  cbn [orb]. destruct (N.ltb_spec c 32); [right; left; repeat split; auto|].
  destruct (N.eqb_spec c 34); [subst; left; exists 34; repeat split|].
  destruct (N.eqb_spec c 92); [subst; left; exists 92; repeat split|].
  right. right. cbn [orb]. repeat split; auto.
Qed.
Lemma escape_text_app a b : escape_text (a ++ b) = escape_text a ++ escape_text b.
Proof. induction a as [|c a IH]; simpl; auto. now rewrite IH, app_assoc. Qed.
Lemma escape_decodes s : decodes (escape_text s) s.
Proof.
  induction s as [|c s IH]; cbn [escape_text]; [constructor|]. fold (esc_char c).
  destruct (esc_char_cases c) as [(e & H1 & -> & _)|[(H1 & -> & _)|(H1 & H2 & H3 & -> & _)]].
  - now apply dec_short.
  - unfold u00. cbn [app]. change (c :: s) with ([c] ++ s). replace [c] with (utf8 c).
    2: { unfold utf8. replace (c <? 128) with true by (symmetry; bools; lia). reflexivity. }
    apply dec_u; auto using u00_hex4; unfold high_surrogate, low_surrogate; lia.
  - now apply dec_plain.
Qed.
Lemma escape_set s : strbody_set (escape_text s).
Proof.
  induction s as [|c s IH]; cbn [escape_text]; [constructor|]. fold (esc_char c).
  destruct (esc_char_cases c) as [(e & H1 & -> & _)|[(H1 & -> & _)|(H1 & H2 & H3 & -> & _)]].
  - eapply ss_short; eauto.
  - unfold u00. cbn [app]. eapply ss_u; eauto using u00_hex4; unfold high_surrogate; lia.
  - now apply ss_plain.
Qed.
Lemma escape_text_len s : lenN (escape_text s) <= 6 * lenN s.
Proof.
  induction s as [|c s IH]; cbn [escape_text]; [unfold lenN; simpl; lia|]. fold (esc_char c).
  rewrite lenN_app, lenN_cons.
  destruct (esc_char_cases c) as [(e & H1 & -> & _)|[(H1 & -> & _)|(H1 & H2 & H3 & -> & _)]];
    unfold u00; rewrite ?lenN_cons, ?lenN_nil; lia.
Qed.
Lemma escape_len_text s : lenN (escape_text s) < two32 -> escape_len s = lenN (escape_text s).
Proof.
  induction s as [|c s IH]; cbn [escape_text escape_len]; [reflexivity|]. fold (esc_char c).
  rewrite lenN_app. intro H.
  assert (E : lenN (esc_char c) = zj_escapeChars_Len c).
  { destruct (esc_char_cases c) as [(e & _ & -> & ->)|[(_ & -> & ->)|(_ & _ & _ & -> & ->)]]; reflexivity. }
  rewrite IH by lia. rewrite u32_small; lia.
Qed.
