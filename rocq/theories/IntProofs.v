(** Decimal text of integers: what %d writes and what atoi reads. *)
From Verif Require Import Base Spec Lex LexProofs Alloc Mem Api.

Lemma dec_digits_ok f : forall n, n < 2 ^ N.of_nat f -> (0 < f)%nat ->
  Forall is_digit (dec_digits f n) /\
  (n = 0 -> dec_digits f n = [48]) /\
  (0 < n -> exists d ds, dec_digits f n = d :: ds /\ 49 <= d <= 57) /\
  forall acc r, exists k, digits_val acc (dec_digits f n ++ r) = digits_val (acc * k + Z.of_N n)%Z r.
Proof.
  induction f as [|f IH]; intros n Hn Hf; [lia|]. cbn [dec_digits].
  destruct (N.ltb_spec n 10) as [L|L].
  - split; [repeat constructor; unfold is_digit; lia|]. split; [intros ->; reflexivity|].
    split; [intro; exists (48 + n), []; split; auto; lia|].
    intros acc r. exists 10%Z. cbn [app digits_val].
    replace (digitb (48 + n)) with true by (symmetry; apply digitb_spec; unfold is_digit; lia).
    f_equal. lia.
  - assert (Hn' : n / 10 < 2 ^ N.of_nat f).
    { rewrite Nnat.Nat2N.inj_succ, N.pow_succ_r' in Hn. apply N.div_lt_upper_bound; lia. }
    assert (Hf' : (0 < f)%nat) by (destruct f; [simpl in Hn'; pose proof (N.div_le_lower_bound n 10 1); lia|lia]).
    destruct (IH (n / 10) Hn' Hf') as (H1 & H2 & H3 & H4).
    assert (Hm := N.mod_lt n 10 ltac:(lia)).
    assert (Hd := N.div_mod n 10 ltac:(lia)).
    split; [apply Forall_app; split; auto; repeat constructor; unfold is_digit; lia|].
    split; [lia|]. split.
    + intros _. destruct H3 as (d & ds & E & Hd'); [apply N.div_str_pos; lia|].
      exists d, (ds ++ [48 + n mod 10]). rewrite E. auto.
    + intros acc r. destruct (H4 acc ([48 + n mod 10] ++ r)) as (k & E). exists (10 * k)%Z.
      rewrite <- app_assoc, E. cbn [app digits_val].
      replace (digitb (48 + n mod 10)) with true by (symmetry; apply digitb_spec; unfold is_digit; lia).
      f_equal. lia.
Qed.
Lemma dec_digits_len f : forall n k, n < 10 ^ N.of_nat k -> (0 < k)%nat -> (length (dec_digits f n) <= k)%nat.
Proof.
  induction f as [|f IH]; intros n k Hn Hk; cbn [dec_digits]; [simpl; lia|].
  destruct (N.ltb_spec n 10) as [L|L]; [simpl; lia|].
  destruct k as [|k]; [lia|]. rewrite Nnat.Nat2N.inj_succ, N.pow_succ_r' in Hn.
  rewrite app_length. cbn [length].
  assert (Hk' : (0 < k)%nat) by (destruct k; [simpl in Hn; lia|lia]).
  specialize (IH (n / 10) k). assert (n / 10 < 10 ^ N.of_nat k) by (apply N.div_lt_upper_bound; lia).
  specialize (IH H Hk'). lia.
Qed.

Definition mag_digits (z : Z) : bytes := dec_digits (S (N.to_nat (N.log2 (Z.abs_N z)))) (Z.abs_N z).
Lemma mag_fuel n : n < 2 ^ N.of_nat (S (N.to_nat (N.log2 n))).
Proof.
  rewrite Nnat.Nat2N.inj_succ, Nnat.N2Nat.id. destruct (N.eq_dec n 0) as [->|H]; [reflexivity|].
  apply N.log2_spec. lia.
Qed.
Lemma mag_ok z : Forall is_digit (mag_digits z) /\ int_part (mag_digits z) /\
  forall acc r, exists k, digits_val acc (mag_digits z ++ r) = digits_val (acc * k + Z.abs z)%Z r.
Proof.
  destruct (dec_digits_ok _ (Z.abs_N z) (mag_fuel _) ltac:(lia)) as (H1 & H2 & H3 & H4).
  split; auto. split.
  - destruct (N.eq_dec (Z.abs_N z) 0) as [E|E]; [left; auto|]. right.
    destruct H3 as (d & ds & E1 & E2); [lia|]. exists d, ds. split; auto.
    unfold mag_digits. rewrite E1 in *. inversion H1; auto.
  - intros acc r. destruct (H4 acc r) as (k & E). exists k. rewrite <- Zabs2N.id_abs. exact E.
Qed.

Lemma dec_text_number z : number (dec_text z).
Proof.
  destruct (mag_ok z) as (H1 & H2 & _).
  exists (if (z <? 0)%Z then [45] else []), (mag_digits z), [], [].
  split; [destruct (z <? 0)%Z; auto|]. split; auto. split; [left; auto|]. split; [left; auto|].
  unfold dec_text. rewrite !app_nil_r. reflexivity.
Qed.
Lemma dec_text_len z k : (Z.abs z < 10 ^ Z.of_nat k)%Z -> (0 < k)%nat -> (length (dec_text z) <= S k)%nat.
Proof.
  intros H Hk. unfold dec_text. rewrite app_length.
  assert (L : (length (mag_digits z) <= k)%nat).
  { apply dec_digits_len; auto. apply N2Z.inj_lt. rewrite N2Z.inj_pow, nat_N_Z, Zabs2N.id_abs. exact H. }
  unfold mag_digits in L. destruct (z <? 0)%Z; simpl length in *; lia.
Qed.
Lemma dec_int_len z : (int_min <= z <= int_max)%Z -> (length (dec_text z) <= 11)%nat.
Proof. unfold int_min, int_max. intro H. apply dec_text_len; lia. Qed.
Lemma dec_long_len z : (long_min <= z <= long_max)%Z -> (length (dec_text z) <= 20)%nat.
Proof. unfold long_min, long_max. intro H. apply dec_text_len; lia. Qed.

(** atoi undoes %d, whatever follows the digits. *)
Lemma ato_dec lo hi z c r : (lo <= z <= hi)%Z -> ~ is_digit c -> ato lo hi (dec_text z ++ c :: r) = Ok z.
Proof.
  intros Hz Hc. destruct (mag_ok z) as (H1 & H2 & H3).
  assert (Hval : digits_val 0 (mag_digits z ++ c :: r) = Ok (Z.abs z)).
  { destruct (H3 0%Z (c :: r)) as (k & E). rewrite E. cbn [digits_val].
    replace (digitb c) with false; [reflexivity|]. symmetry. destruct (digitb c) eqn:Ec; auto.
    apply digitb_spec in Ec. contradiction. }
  assert (Hne : exists d ds, mag_digits z = d :: ds /\ is_digit d).
  { destruct (mag_digits z) as [|d ds]; [destruct H2 as [|(d & ds & _ & _ & E)]; discriminate|].
    inversion H1; subst. eauto. }
  assert (Hb : ((lo <=? z)%Z && (z <=? hi)%Z) = true) by (apply andb_true_intro; split; apply Z.leb_le; lia).
  unfold ato. change (dec_text z) with ((if (z <? 0)%Z then [45] else []) ++ mag_digits z).
  rewrite <- app_assoc. destruct (Z.ltb_spec z 0) as [L|L].
  - cbn [app skip_space]. change (isspace 45) with false. cbv iota. change (45 =? 45) with true. cbv iota.
    rewrite Hval. cbn [rbind]. replace (- Z.abs z)%Z with z by lia. now rewrite Hb.
  - destruct Hne as (d & ds & E & Hd). rewrite E in *. cbn [app] in *. cbn [skip_space].
    unfold is_digit in Hd.
    replace (isspace d) with false by (symmetry; unfold isspace; bools; lia).
    replace (d =? 45) with false by (symmetry; bools; lia).
    replace (d =? 43) with false by (symmetry; bools; lia).
    rewrite Hval. cbn [rbind]. replace (Z.abs z) with z by lia. now rewrite Hb.
Qed.
