(** Doubles: the text of a finite double is a JSON number of at most 24
    characters, and reading it gives the same double. *)
From Coq Require Import QArith Qpower Qround Qabs Lqa.
From Verif Require Import Base Spec Lex LexProofs Alloc Mem Api IntProofs Double.
Open Scope N_scope.

(** ** Powers *)
Lemma two_pos e : (0 < two ^ e)%Q.
Proof. apply Qpower_0_lt. reflexivity. Qed.
Lemma ten_pos e : (0 < ten ^ e)%Q.
Proof. apply Qpower_0_lt. reflexivity. Qed.
Lemma two_plus a b : (two ^ (a + b) == two ^ a * two ^ b)%Q.
Proof. apply Qpower_plus. discriminate. Qed.
Lemma ten_plus a b : (ten ^ (a + b) == ten ^ a * ten ^ b)%Q.
Proof. apply Qpower_plus. discriminate. Qed.
Lemma base_pow b n : (0 <= n)%Z -> (inject_Z (b ^ n) == inject_Z b ^ n)%Q.
Proof. apply Zpower_Qpower. Qed.

(** ** Rounding to an integer *)
Lemma nearest_close q : (Qabs (q - inject_Z (nearest q)) <= 1 # 2)%Q.
Proof.
  pose proof (Qfloor_le q) as L. pose proof (Qlt_floor q) as U. rewrite inject_Z_plus in U.
  unfold nearest. destruct (Qcompare_spec (q - inject_Z (Qfloor q)) (1 # 2)) as [E|E|E];
    [destruct (Z.even (Qfloor q))| |]; rewrite ?inject_Z_plus; apply Qabs_Qle_condition; change (inject_Z 1) with 1%Q in *; split; lra.
Qed.
Lemma inject_le a b : (a <= b)%Z -> (inject_Z a <= inject_Z b)%Q.
Proof. now rewrite Zle_Qle. Qed.
Lemma inject_lt_inv a b : (inject_Z a < inject_Z b)%Q -> (a < b)%Z.
Proof. now rewrite Zlt_Qlt. Qed.
(** Strictly within one half there is only one integer. *)
Lemma nearest_unique q z : (Qabs (q - inject_Z z) < 1 # 2)%Q -> nearest q = z.
Proof.
  intro H. pose proof (nearest_close q) as C. apply Qabs_Qle_condition in C. apply Qabs_Qlt_condition in H.
  assert (inject_Z (nearest q) < inject_Z (z + 1))%Q by (rewrite inject_Z_plus; change (inject_Z 1) with 1%Q; lra).
  assert (inject_Z z < inject_Z (nearest q + 1))%Q by (rewrite inject_Z_plus; change (inject_Z 1) with 1%Q; lra).
  apply inject_lt_inv in H0, H1. lia.
Qed.
Lemma nearest_range q a b : (inject_Z a <= q < inject_Z b)%Q -> (a <= nearest q <= b)%Z.
Proof.
  intros [L U]. pose proof (nearest_close q) as C. apply Qabs_Qle_condition in C.
  assert (inject_Z a < inject_Z (nearest q + 1))%Q by (rewrite inject_Z_plus; change (inject_Z 1) with 1%Q; lra).
  assert (inject_Z (nearest q) < inject_Z (b + 1))%Q by (rewrite inject_Z_plus; change (inject_Z 1) with 1%Q; lra).
  apply inject_lt_inv in H, H0. lia.
Qed.

(** ** Logarithms *)
Section Log.
Variable b : Z.
Hypothesis Hb : (2 <= b)%Z.
Let B := inject_Z b.
Lemma B_ge : (2 <= B)%Q.
Proof. unfold B. change 2%Q with (inject_Z 2). now apply inject_le. Qed.
Lemma B_nz : ~ (B == 0)%Q.
Proof. pose proof B_ge. intro E. rewrite E in H. now compute in H. Qed.
Lemma zlog_spec f : forall n, (1 <= n)%Z -> (n < 2 ^ Z.of_nat f)%Z -> (0 <= zlog f b n)%Z /\ (b ^ zlog f b n <= n < b ^ (zlog f b n + 1))%Z.
Proof.
  induction f as [|f IH]; intros n H1 H2; [simpl in H2; lia|]. cbn [zlog].
  destruct (Z.ltb_spec n b) as [L|L]; [split; [lia|]; change (0 + 1)%Z with 1%Z; rewrite Z.pow_1_r; change (b ^ 0)%Z with 1%Z; lia|].
  assert (D : (n = b * (n / b) + n mod b)%Z) by (apply Z.div_mod; lia).
  assert (M : (0 <= n mod b < b)%Z) by (apply Z.mod_pos_bound; lia).
  destruct (IH (n / b)%Z) as (K0 & K1 & K2).
  - apply Z.div_le_lower_bound; lia.
  - rewrite Nat2Z.inj_succ, Z.pow_succ_r in H2 by lia. apply Z.div_lt_upper_bound; [lia|]. nia.
  - split; [lia|]. rewrite <- !Z.add_assoc, (Z.add_comm 1), !Z.pow_add_r by lia. change (b ^ 1)%Z with (b * 1)%Z.
    rewrite Z.pow_add_r in K2 by lia. change (b ^ 1)%Z with (b * 1)%Z in K2. nia.
Qed.
Lemma dlog_spec f : forall q, (0 < q)%Q -> (q < B)%Q -> (1 <= q * B ^ Z.of_nat f)%Q ->
  (1 <= q * B ^ dlog f b q /\ q * B ^ dlog f b q < B)%Q.
Proof.
  pose proof B_ge as Bg. induction f as [|f IH]; intros q Hq H1 H2; cbn [dlog].
  - change (Z.of_nat 0) with 0%Z in H2. change (B ^ 0)%Q with 1%Q in *. lra.
  - destruct (Qle_bool 1 q) eqn:E.
    + apply Qle_bool_iff in E. change (B ^ 0)%Q with 1%Q. lra.
    + assert (L : (q < 1)%Q) by (apply Qnot_le_lt; intro C; apply Qle_bool_iff in C; congruence).
      destruct (IH (B * q)%Q) as [K1 K2].
      * nra.
      * nra.
      * rewrite Nat2Z.inj_succ in H2. unfold Z.succ in H2. rewrite Qpower_plus in H2 by apply B_nz. change (B ^ 1)%Q with B in H2. lra.
      * fold B. rewrite Qpower_plus by apply B_nz. change (B ^ 1)%Q with B. split; lra.
Qed.
Lemma flog_spec q : (0 < q)%Q -> (B ^ flog b q <= q < B ^ (flog b q + 1))%Q.
Proof.
  intro Hq. pose proof B_ge as Bg. unfold flog. destruct (Qle_bool 1 q) eqn:E.
  - apply Qle_bool_iff in E.
    assert (F1 : (1 <= Qfloor q)%Z) by (rewrite <- (Qfloor_Z 1); now apply Qfloor_resp_le).
    set (k := zlog _ _ _). destruct (zlog_spec (S (Z.to_nat (Z.log2 (Qfloor q)))) (Qfloor q) F1) as (K0 & K1 & K2).
    { rewrite Nat2Z.inj_succ, Z2Nat.id by apply Z.log2_nonneg. apply Z.log2_spec. lia. }
    fold k in K0, K1, K2. pose proof (Qfloor_le q) as L. pose proof (Qlt_floor q) as U. split.
    + apply inject_le in K1. rewrite base_pow in K1 by auto. fold B in K1. lra.
    + assert (K3 : (Qfloor q + 1 <= b ^ (k + 1))%Z) by lia. apply inject_le in K3. rewrite base_pow in K3 by lia. fold B in K3. lra.
  - assert (L : (q < 1)%Q) by (apply Qnot_le_lt; intro C; apply Qle_bool_iff in C; congruence).
    set (f := S _). destruct (dlog_spec f q Hq) as [K1 K2]; [lra| |].
    { assert (G : (Z.pos (Qden q) <= b ^ Z.of_nat f)%Z).
      { unfold f. rewrite Nat2Z.inj_succ, Z2Nat.id by apply Z.log2_up_nonneg.
        set (u := Z.log2_up _). assert (U0 : (0 <= u)%Z) by apply Z.log2_up_nonneg.
        assert (U1 : (Z.pos (Qden q) <= 2 ^ u)%Z).
        { destruct (Z.eq_dec (Z.pos (Qden q)) 1) as [->|N]; [pose proof (Z.pow_pos_nonneg 2 u); lia|].
          apply Z.log2_up_spec. lia. }
        assert (U2 : (2 ^ u <= b ^ u)%Z) by (apply Z.pow_le_mono_l; lia).
        assert (U3 : (b ^ u <= b ^ Z.succ u)%Z) by (apply Z.pow_le_mono_r; lia). lia. }
      apply inject_le in G. rewrite base_pow in G by lia. fold B in G.
      assert (Q1 : (1 <= q * inject_Z (Z.pos (Qden q)))%Q).
      { destruct q as [n d]. unfold Qlt in Hq. simpl in Hq. unfold Qle, Qmult, inject_Z. cbn [Qnum Qden]. nia. }
      nra. }
    set (k := dlog f b q) in *.
    assert (P : (B ^ k * B ^ (- k) == 1)%Q) by (rewrite <- Qpower_plus by apply B_nz; now rewrite Z.add_opp_diag_r).
    assert (P1 : (0 < B ^ (- k))%Q) by (apply Qpower_0_lt; lra).
    rewrite Qpower_plus by apply B_nz. change (B ^ 1)%Q with B. split.
    + setoid_replace q with ((q * B ^ k) * B ^ (- k))%Q by (rewrite <- Qmult_assoc, P; ring). nra.
    + setoid_replace q with ((q * B ^ k) * B ^ (- k))%Q at 1 by (rewrite <- Qmult_assoc, P; ring). nra.
Qed.
End Log.
Lemma flog_unique b q k : (2 <= b)%Z -> (0 < q)%Q -> (inject_Z b ^ k <= q < inject_Z b ^ (k + 1))%Q -> flog b q = k.
Proof.
  intros Hb Hq [L U]. destruct (flog_spec b Hb q Hq) as [L' U'].
  assert (Mono : forall x y, (inject_Z b ^ x < inject_Z b ^ y)%Q -> (x < y)%Z).
  { intros x y H. destruct (Z.lt_ge_cases x y) as [|G]; auto. exfalso.
    replace x with (y + (x - y))%Z in H by lia. rewrite Qpower_plus in H by now apply B_nz.
    assert (P : (1 <= inject_Z b ^ (x - y))%Q) by (rewrite <- base_pow by lia; change 1%Q with (inject_Z 1); apply inject_le; pose proof (Z.pow_pos_nonneg b (x - y)); lia).
    assert (Y : (0 < inject_Z b ^ y)%Q) by (apply Qpower_0_lt; pose proof (B_ge b Hb); lra). nra. }
  assert (flog b q < k + 1)%Z by (apply Mono; lra). assert (k < flog b q + 1)%Z by (apply Mono; lra). lia.
Qed.
Lemma pow_lt b x y : (2 <= b)%Z -> (inject_Z b ^ x < inject_Z b ^ y)%Q -> (x < y)%Z.
Proof.
  intros Hb H. destruct (Z.lt_ge_cases x y) as [|G]; auto. exfalso.
  replace x with (y + (x - y))%Z in H by lia. rewrite Qpower_plus in H by now apply B_nz.
  assert (P : (1 <= inject_Z b ^ (x - y))%Q) by (rewrite <- base_pow by lia; change 1%Q with (inject_Z 1); apply inject_le; pose proof (Z.pow_pos_nonneg b (x - y)); lia).
  assert (Y : (0 < inject_Z b ^ y)%Q) by (apply Qpower_0_lt; pose proof (B_ge b Hb); lra). nra.
Qed.
Lemma flog_below b q k : (2 <= b)%Z -> (0 < q)%Q -> (q < inject_Z b ^ k)%Q -> (flog b q < k)%Z.
Proof. intros Hb Hq H. destruct (flog_spec b Hb q Hq) as [L _]. apply (pow_lt b); auto. lra. Qed.
Lemma flog_above b q k : (2 <= b)%Z -> (0 < q)%Q -> (inject_Z b ^ k <= q)%Q -> (k <= flog b q)%Z.
Proof. intros Hb Hq H. destruct (flog_spec b Hb q Hq) as [_ U]. enough (k < flog b q + 1)%Z by lia. apply (pow_lt b); auto. lra. Qed.

(** ** The 17 digits *)
Lemma digits17_spec q d x : (0 < q)%Q -> digits17 q = (d, x) ->
  (10 ^ 16 <= d < 10 ^ 17)%Z /\ (flog 10 q <= x <= flog 10 q + 1)%Z /\
  (Qabs (inject_Z d * ten ^ (x - 16) - q) <= q * (1 # 20000000000000000))%Q.
Proof.
  intros Hq E. unfold digits17 in E. set (k := flog 10 q) in *.
  destruct (flog_spec 10 ltac:(lia) q Hq) as [L U]. fold k in L, U. change (inject_Z 10) with ten in L, U.
  set (y := (q * ten ^ (16 - k))%Q) in *.
  assert (P : (ten ^ (16 - k) * ten ^ (k - 16) == 1)%Q) by (rewrite <- ten_plus; now replace (16 - k + (k - 16))%Z with 0%Z by lia).
  assert (P1 := ten_pos (16 - k)). assert (P2 := ten_pos (k - 16)).
  assert (Y : (inject_Z (10 ^ 16) <= y /\ y < inject_Z (10 ^ 17))%Q).
  { assert (A1 : (ten ^ k * ten ^ (16 - k) == inject_Z (10 ^ 16))%Q) by (rewrite <- ten_plus; now replace (k + (16 - k))%Z with 16%Z by lia).
    assert (A2 : (ten ^ (k + 1) * ten ^ (16 - k) == inject_Z (10 ^ 17))%Q) by (rewrite <- ten_plus; now replace (k + 1 + (16 - k))%Z with 17%Z by lia).
    unfold y. rewrite <- A1, <- A2. split; nra. }
  pose proof (nearest_range y _ _ Y) as R. pose proof (nearest_close y) as C.
  set (n := nearest y) in *.
  assert (Er : (Qabs (inject_Z n * ten ^ (k - 16) - q) <= q * (1 # 20000000000000000))%Q).
  { assert (Eq : (q == y * ten ^ (k - 16))%Q) by (unfold y; rewrite <- Qmult_assoc, P; ring).
    apply Qabs_Qle_condition in C. apply Qabs_Qle_condition. rewrite !Eq. change (inject_Z (10 ^ 16)) with (10000000000000000 # 1) in Y.
    split; nra. }
  destruct (Z.eqb_spec n (10 ^ 17)) as [En|En]; injection E as <- <-.
  - split; [lia|]. split; [lia|]. assert (E1 : (inject_Z (10 ^ 16) * ten ^ (k + 1 - 16) == inject_Z n * ten ^ (k - 16))%Q).
    { rewrite En. replace (k + 1 - 16)%Z with (1 + (k - 16))%Z by lia. rewrite ten_plus.
      change (ten ^ 1)%Q with (10 # 1). change (inject_Z (10 ^ 16)) with (10000000000000000 # 1). change (inject_Z (10 ^ 17)) with (100000000000000000 # 1). ring. }
    rewrite E1. exact Er.
  - split; [lia|]. split; [lia|]. exact Er.
Qed.

(** 17 digits determine the double. *)
Lemma to_double_near neg m e r : (0 < m < 2 ^ 53)%Z -> (-1074 <= e <= 971)%Z -> (e = -1074 \/ 2 ^ 52 <= m)%Z ->
  (Qabs (r - magnitude m e) <= magnitude m e * (1 # 20000000000000000))%Q -> to_double neg r = DFin neg m e.
Proof.
  intros Hm He Hn Hr. unfold magnitude in Hr. apply Qabs_Qle_condition in Hr.
  assert (U := two_pos e). assert (V := two_pos (- e)).
  assert (P : (two ^ e * two ^ (- e) == 1)%Q) by (rewrite <- two_plus; now replace (e + - e)%Z with 0%Z by lia).
  set (u := (two ^ e)%Q) in *. set (w := (two ^ (- e))%Q) in *. set (t := (r * w)%Q).
  assert (Et : (r == t * u)%Q) by (unfold t; rewrite <- Qmult_assoc, (Qmult_comm w u), P; ring).
  assert (M1 : (1 <= inject_Z m)%Q) by (change 1%Q with (inject_Z 1); apply inject_le; lia).
  assert (M2 : (inject_Z m <= 9007199254740991 # 1)%Q) by (change (9007199254740991 # 1) with (inject_Z 9007199254740991); apply inject_le; lia).
  set (M := inject_Z m) in *.
  assert (Ht : (- (M * (1 # 20000000000000000)) <= t - M /\ t - M <= M * (1 # 20000000000000000))%Q).
  { rewrite Et in Hr. destruct Hr as [R1 R2].
    split; apply (Qmult_le_r _ _ u U).
    - setoid_replace (- (M * (1 # 20000000000000000)) * u)%Q with (- (M * u * (1 # 20000000000000000)))%Q by ring.
      setoid_replace ((t - M) * u)%Q with (t * u - M * u)%Q by ring. exact R1.
    - setoid_replace ((M * (1 # 20000000000000000)) * u)%Q with ((M * u * (1 # 20000000000000000)))%Q by ring.
      setoid_replace ((t - M) * u)%Q with (t * u - M * u)%Q by ring. exact R2. }
  assert (Tp : (0 < t)%Q) by lra. assert (Rp : (0 < r)%Q) by (rewrite Et; nra).
  assert (W52 : (two ^ (e + 52) == (4503599627370496 # 1) * u)%Q) by (rewrite two_plus; change (two ^ 52)%Q with (4503599627370496 # 1); unfold u; ring).
  assert (W53 : (two ^ (e + 53) == (9007199254740992 # 1) * u)%Q) by (rewrite two_plus; change (two ^ 53)%Q with (9007199254740992 # 1); unfold u; ring).
  assert (W51 : (two ^ (e + 51) == (2251799813685248 # 1) * u)%Q) by (rewrite two_plus; change (two ^ 51)%Q with (2251799813685248 # 1); unfold u; ring).
  unfold to_double. destruct (Qeq_bool r 0) eqn:E0; [apply Qeq_bool_eq in E0; rewrite E0 in Rp; discriminate|].
  assert (Up : (flog 2 r < e + 53)%Z).
  { apply flog_below; [lia|auto|]. change (inject_Z 2) with two. rewrite W53, Et. apply Qmult_lt_r; auto. lra. }
  assert (Main : forall z, z = Z.max (-1074) (flog 2 r - 52) -> z = e ->
    (let (m0, e0) := if (nearest (r * two ^ (- z)) =? 2 ^ 53)%Z then ((2 ^ 52)%Z, (z + 1)%Z) else (nearest (r * two ^ (- z)), z) in
     if (971 <? e0)%Z then DInf neg else DFin neg m0 e0) = DFin neg m e).
  { intros z _ ->. fold w t. assert (Nt : nearest t = m) by (apply nearest_unique; fold M; apply Qabs_Qlt_condition; split; lra).
    rewrite Nt. destruct (Z.eqb_spec m (2 ^ 53)); [lia|]. destruct (Z.ltb_spec 971 e); [lia|]. reflexivity. }
  cbv zeta. destruct (Z.lt_ge_cases m (2 ^ 52)) as [Lm|Lm].
  - (* subnormal *) assert (e = -1074)%Z by lia. apply Main; auto. assert (flog 2 r < e + 52)%Z; [|lia].
    apply flog_below; [lia|auto|]. change (inject_Z 2) with two. rewrite W52, Et. apply Qmult_lt_r; auto.
    assert (M <= 4503599627370495 # 1)%Q by (change (4503599627370495 # 1) with (inject_Z 4503599627370495); apply inject_le; lia). lra.
  - destruct (Qlt_le_dec r (two ^ (e + 52))) as [Lr|Lr].
    + (* rounding went below a power of two *)
      assert (Lo : (e + 51 <= flog 2 r)%Z).
      { apply flog_above; [lia|auto|]. change (inject_Z 2) with two. rewrite W51, Et. apply Qmult_le_r; auto.
        assert (4503599627370496 # 1 <= M)%Q by (change (4503599627370496 # 1) with (inject_Z 4503599627370496); apply inject_le; lia). lra. }
      assert (Hi : (flog 2 r < e + 52)%Z) by (apply flog_below; [lia|auto|]; exact Lr).
      assert (Em : m = (2 ^ 52)%Z).
      { rewrite W52, Et in Lr. apply Qmult_lt_r in Lr; auto.
        destruct (Z.eq_dec m (2 ^ 52)) as [|N]; auto. exfalso.
        assert (4503599627370497 # 1 <= M)%Q by (change (4503599627370497 # 1) with (inject_Z 4503599627370497); apply inject_le; lia). lra. }
      destruct (Z.eq_dec e (-1074)) as [Ee|Ee]; [apply Main; auto; lia|].
      replace (Z.max (-1074) (flog 2 r - 52))%Z with (e - 1)%Z by lia.
      assert (EM : (M == 4503599627370496 # 1)%Q) by (unfold M; rewrite Em; reflexivity).
      assert (Nt : nearest (r * two ^ (- (e - 1))) = (2 ^ 53)%Z).
      { apply nearest_unique. replace (- (e - 1))%Z with (- e + 1)%Z by lia. rewrite two_plus. change (two ^ 1)%Q with (2 # 1). fold w.
        setoid_replace (r * (w * (2 # 1)))%Q with (t * (2 # 1))%Q by (unfold t; ring).
        change (inject_Z (2 ^ 53)) with (9007199254740992 # 1). apply Qabs_Qlt_condition. rewrite EM in Ht. split; lra. }
      rewrite Nt. change (2 ^ 53 =? 2 ^ 53)%Z with true. cbv iota. replace (e - 1 + 1)%Z with e by lia.
      destruct (Z.ltb_spec 971 e); [lia|]. now rewrite Em.
    + apply Main; auto. assert (e + 52 <= flog 2 r)%Z by (apply flog_above; [lia|auto|exact Lr]). lia.
Qed.

(** ** Digit strings *)
Lemma dnum_from l : forall acc, fold_left (fun acc c => (10 * acc + Z.of_N (c - 48))%Z) l acc = (acc * 10 ^ Z.of_nat (length l) + dnum l)%Z.
Proof.
  unfold dnum. induction l as [|c l IH]; intro acc; [cbn; lia|]. cbn [fold_left]. rewrite IH, (IH (10 * 0 + _)%Z).
  cbn [length]. rewrite Nat2Z.inj_succ, Z.pow_succ_r by lia. lia.
Qed.
Lemma dnum_cons c l : dnum (c :: l) = (Z.of_N (c - 48) * 10 ^ Z.of_nat (length l) + dnum l)%Z.
Proof. unfold dnum at 1. cbn [fold_left]. rewrite dnum_from. f_equal; lia. Qed.
Lemma dnum_app a b : dnum (a ++ b) = (dnum a * 10 ^ Z.of_nat (length b) + dnum b)%Z.
Proof. unfold dnum at 1. rewrite fold_left_app. apply dnum_from. Qed.
Lemma dnum_zeros k : dnum (repeat 48 k) = 0%Z.
Proof. induction k as [|k IH]; [reflexivity|]. cbn [repeat]. rewrite dnum_cons, IH. lia. Qed.
Lemma fdigits_len k n : length (fdigits k n) = k.
Proof. induction k; cbn [fdigits length]; auto. Qed.
Lemma fdigits_digit k n : Forall is_digit (fdigits k n).
Proof.
  induction k as [|k IH]; cbn [fdigits]; constructor; auto. unfold is_digit.
  pose proof (Z.mod_pos_bound (n / 10 ^ Z.of_nat k) 10). lia.
Qed.
Lemma fdigits_num k n : (0 <= n)%Z -> dnum (fdigits k n) = (n mod 10 ^ Z.of_nat k)%Z.
Proof.
  intro Hn. induction k as [|k IH]; [now rewrite Z.mod_1_r|]. cbn [fdigits]. rewrite dnum_cons, fdigits_len, IH.
  set (b := (10 ^ Z.of_nat k)%Z). assert (Hb : (0 < b)%Z) by (apply Z.pow_pos_nonneg; lia).
  rewrite Nat2Z.inj_succ, Z.pow_succ_r by lia. fold b.
  pose proof (Z.mod_pos_bound (n / b) 10 ltac:(lia)).
  replace (Z.of_N (48 + Z.to_N ((n / b) mod 10) - 48)) with ((n / b) mod 10)%Z by lia.
  rewrite (Z.mul_comm 10 b). rewrite Z.rem_mul_r by lia. lia.
Qed.
Lemma strip0_split l : exists k, l = strip0 l ++ repeat 48 k.
Proof.
  induction l as [|c l (k & IH)]; [exists 0%nat; reflexivity|]. cbn [strip0]. destruct (strip0 l) as [|a r].
  - destruct (N.eqb_spec c 48) as [->|N].
    + exists (S k). cbn. now rewrite IH at 1.
    + exists k. cbn. now rewrite IH at 1.
  - exists k. cbn [app]. now rewrite IH at 1.
Qed.
Lemma dec_digits_num f : forall n, n < 2 ^ N.of_nat f -> (0 < f)%nat -> dnum (dec_digits f n) = Z.of_N n.
Proof.
  induction f as [|f IH]; intros n Hn Hf; [lia|]. cbn [dec_digits].
  destruct (N.ltb_spec n 10) as [L|L].
  - rewrite dnum_cons. cbn [length]. change (dnum []) with 0%Z. change (10 ^ Z.of_nat 0)%Z with 1%Z. lia.
  - assert (Hn' : n / 10 < 2 ^ N.of_nat f).
    { rewrite Nnat.Nat2N.inj_succ, N.pow_succ_r' in Hn. apply N.div_lt_upper_bound; lia. }
    assert (Hf' : (0 < f)%nat) by (destruct f; [simpl in Hn'; pose proof (N.div_le_lower_bound n 10 1); lia|lia]).
    rewrite dnum_app, (IH _ Hn' Hf'), dnum_cons. cbn [length]. change (dnum []) with 0%Z. change (10 ^ Z.of_nat 0)%Z with 1%Z.
    change (10 ^ Z.of_nat 1)%Z with 10%Z. pose proof (N.div_mod n 10 ltac:(lia)). lia.
Qed.

(** ** The shape of the text *)
Definition exp_text (ex : option Z) : bytes := match ex with None => [] | Some x => 101 :: exponent x end.
Definition exp_val (ex : option Z) : Z := match ex with None => 0%Z | Some x => x end.
Record shape (t i f : bytes) (ex : option Z) (d x : Z) : Prop := {
  sh_text : t = i ++ dotted f ++ exp_text ex;
  sh_int : int_part i;
  sh_idig : Forall is_digit i;
  sh_fdig : Forall is_digit f;
  sh_val : exists k, dnum (i ++ f ++ repeat 48 k) = d /\ (exp_val ex - Z.of_nat (length f) - Z.of_nat k = x - 16)%Z;
  sh_len : (length i + length (dotted f) <= 22)%nat;
  sh_exp : ex <> None -> (length i + length (dotted f) <= 18)%nat }.

Lemma digits_app l a : Forall is_digit (l ++ a) -> Forall is_digit l.
Proof. intro H. apply Forall_app in H. tauto. Qed.
Lemma head17 d : (10 ^ 16 <= d < 10 ^ 17)%Z -> exists c l, fdigits 17 d = c :: l /\ 49 <= c <= 57 /\ Forall is_digit l /\ length l = 16%nat.
Proof.
  intro H. exists (48 + Z.to_N ((d / 10 ^ Z.of_nat 16) mod 10)), (fdigits 16 d). split; [reflexivity|].
  split; [|split; [apply fdigits_digit|apply fdigits_len]].
  change (10 ^ Z.of_nat 16)%Z with (10 ^ 16)%Z.
  assert (1 <= d / 10 ^ 16)%Z by (apply Z.div_le_lower_bound; lia).
  assert (d / 10 ^ 16 < 10)%Z by (apply Z.div_lt_upper_bound; lia).
  rewrite Z.mod_small by lia. lia.
Qed.
Lemma g17_shape d x : (10 ^ 16 <= d < 10 ^ 17)%Z -> exists i f ex, shape (g17_digits d x) i f ex d x /\ (ex = None \/ ex = Some x).
Proof.
  intro Hd. unfold g17_digits. destruct (head17 d Hd) as (c & l & Eds & Hc & Hl & Ll).
  assert (Nd : dnum (fdigits 17 d) = d) by (rewrite fdigits_num by lia; apply Z.mod_small; change (10 ^ Z.of_nat 17)%Z with (10 ^ 17)%Z; lia).
  rewrite Eds in *. cbv zeta. unfold fraction.
  destruct (Z.leb_spec (-4) x) as [L1|L1]; [destruct (Z.ltb_spec x 17) as [L2|L2]|]; cbn [andb].
  - destruct (Z.leb_spec 0 x) as [L3|L3].
    + replace (Z.to_nat (x + 1)) with (S (Z.to_nat x)) by lia. cbn [firstn skipn].
      destruct (strip0_split (skipn (Z.to_nat x) l)) as (k & Es).
      pose proof (firstn_skipn (Z.to_nat x) l) as Efs.
      assert (Lf : length (firstn (Z.to_nat x) l) = Z.to_nat x) by (apply firstn_length_le; lia).
      assert (Ls : length (skipn (Z.to_nat x) l) = (16 - Z.to_nat x)%nat) by (rewrite skipn_length; lia).
      assert (Ls' : (length (strip0 (skipn (Z.to_nat x) l)) + k = 16 - Z.to_nat x)%nat) by (pose proof (f_equal (@length N) Es) as E; rewrite app_length, repeat_length in E; lia).
      rewrite <- Efs in Hl. apply Forall_app in Hl as [Hl1 Hl2]. rewrite Es in Hl2. apply digits_app in Hl2.
      exists (c :: firstn (Z.to_nat x) l), (strip0 (skipn (Z.to_nat x) l)), None. split; [|auto]. split.
      * cbn [exp_text]. now rewrite app_nil_r.
      * right. exists c, (firstn (Z.to_nat x) l). auto.
      * constructor; auto. unfold is_digit. lia.
      * auto.
      * exists k. rewrite <- Es. cbn [app]. rewrite Efs. split; auto. cbn [exp_val]. lia.
      * cbn [length]. unfold dotted. destruct (strip0 (skipn (Z.to_nat x) l)); cbn [length] in *; lia.
      * congruence.
    + set (z := repeat 48 (Z.to_nat (- x - 1))). destruct (strip0_split (z ++ c :: l)) as (k & Es).
      assert (Lz : length z = Z.to_nat (- x - 1)) by apply repeat_length.
      assert (Ls : (length (strip0 (z ++ c :: l)) + k = Z.to_nat (- x - 1) + 17)%nat).
      { assert (E : length (z ++ c :: l) = length (strip0 (z ++ c :: l) ++ repeat 48 k)) by now rewrite <- Es.
        rewrite !app_length, repeat_length in E. cbn [length] in E. lia. }
      exists [48], (strip0 (z ++ c :: l)), None. split; [|auto]. split.
      * cbn [exp_text]. now rewrite app_nil_r.
      * left. reflexivity.
      * constructor; auto. unfold is_digit. lia.
      * apply (digits_app _ (repeat 48 k)). rewrite <- Es. apply Forall_app. split; [|constructor; auto; unfold is_digit; lia].
        apply Forall_forall. intros y Hy. apply repeat_spec in Hy. subst. unfold is_digit. lia.
      * exists k. rewrite <- Es. split; [|cbn [exp_val]; lia]. cbn [app]. rewrite dnum_cons, dnum_app. unfold z. rewrite dnum_zeros. lia.
      * cbn [length]. unfold dotted. destruct (strip0 (z ++ c :: l)); cbn [length] in *; lia.
      * congruence.
  - cbn [firstn skipn]. destruct (strip0_split l) as (k & Es).
    assert (Ls : (length (strip0 l) + k = 16)%nat) by (pose proof (f_equal (@length N) Es) as E; rewrite app_length, repeat_length in E; lia).
    exists [c], (strip0 l), (Some x). split; [|auto]. split; auto.
    + right. exists c, []. auto.
    + constructor; auto. unfold is_digit. lia.
    + rewrite Es in Hl. now apply digits_app in Hl.
    + exists k. rewrite <- Es. split; auto. cbn [exp_val]. lia.
    + cbn [length]. unfold dotted. destruct (strip0 l); cbn [length] in *; lia.
    + intros _. cbn [length]. unfold dotted. destruct (strip0 l); cbn [length] in *; lia.
  - cbn [firstn skipn]. destruct (strip0_split l) as (k & Es).
    assert (Ls : (length (strip0 l) + k = 16)%nat) by (pose proof (f_equal (@length N) Es) as E; rewrite app_length, repeat_length in E; lia).
    exists [c], (strip0 l), (Some x). split; [|auto]. split; auto.
    + right. exists c, []. auto.
    + constructor; auto. unfold is_digit. lia.
    + rewrite Es in Hl. now apply digits_app in Hl.
    + exists k. rewrite <- Es. split; auto. cbn [exp_val]. lia.
    + cbn [length]. unfold dotted. destruct (strip0 l); cbn [length] in *; lia.
    + intros _. cbn [length]. unfold dotted. destruct (strip0 l); cbn [length] in *; lia.
Qed.

Lemma exponent_ok x : exists sg ds, exponent x = sg :: ds /\ (sg = 43 /\ (0 <= x)%Z \/ sg = 45 /\ (x < 0)%Z) /\ ds <> [] /\ Forall is_digit ds /\
  dnum ds = Z.abs x /\ ((Z.abs x < 1000)%Z -> (length ds <= 3)%nat).
Proof.
  unfold exponent. set (m := dec_digits _ _).
  destruct (dec_digits_ok _ (Z.abs_N x) (mag_fuel _) ltac:(lia)) as (H1 & H2 & H3 & _). fold m in H1, H2, H3.
  assert (Hd : dnum m = Z.abs x) by (unfold m; rewrite dec_digits_num by (apply mag_fuel || lia); lia).
  assert (Hn : m <> []) by (destruct (N.eq_dec (Z.abs_N x) 0) as [E|E]; [rewrite H2 by auto; discriminate|destruct H3 as (? & ? & -> & _); [lia|discriminate]]).
  exists (if (x <? 0)%Z then 45 else 43), ((if (Z.abs x <? 10)%Z then [48] else []) ++ m). split; [now destruct (x <? 0)%Z|].
  split; [destruct (Z.ltb_spec x 0); auto|]. split; [destruct (Z.abs x <? 10)%Z; [discriminate|auto]|].
  split; [|split].
  - destruct (Z.abs x <? 10)%Z; auto. constructor; auto. unfold is_digit; lia.
  - rewrite dnum_app, Hd. destruct (Z.abs x <? 10)%Z; [|change (dnum []) with 0%Z; lia]. change (dnum [48]) with 0%Z. lia.
  - intro Hx. rewrite app_length. destruct (Z.ltb_spec (Z.abs x) 10) as [L|L]; cbn [length].
    + assert (length m <= 1)%nat by (apply dec_digits_len; [change (10 ^ N.of_nat 1) with 10; lia|lia]). lia.
    + assert (length m <= 3)%nat by (apply dec_digits_len; [change (10 ^ N.of_nat 3) with 1000; lia|lia]). lia.
Qed.
Lemma dotted_frac f : Forall is_digit f -> frac_part (dotted f).
Proof. intro H. destruct f as [|c f]; [now left|]. right. exists (c :: f). split; [discriminate|]. auto. Qed.
Lemma exp_text_part ex : exp_part (exp_text ex).
Proof.
  destruct ex as [x|]; [|now left]. destruct (exponent_ok x) as (sg & ds & E & Hs & Hn & Hd & _).
  right. exists 101, [sg], ds. split; auto. split; [right; destruct Hs as [[-> _]|[-> _]]; auto|]. split; auto. split; auto.
  cbn [exp_text]. now rewrite E.
Qed.
Lemma shape_number neg t i f ex d x : shape t i f ex d x -> number (sign_text neg ++ t).
Proof.
  intros [-> H1 H2 H3 _ _ _]. exists (sign_text neg), i, (dotted f), (exp_text ex).
  split; [destruct neg; auto|]. split; auto. split; [now apply dotted_frac|]. split; [apply exp_text_part|]. reflexivity.
Qed.

Lemma two_mono a b : (a <= b)%Z -> (two ^ a <= two ^ b)%Q.
Proof.
  intro H. replace b with (a + (b - a))%Z by lia. rewrite two_plus. pose proof (two_pos a).
  assert (1 <= two ^ (b - a))%Q by (change two with (inject_Z 2); rewrite <- base_pow by lia; change 1%Q with (inject_Z 1); apply inject_le; pose proof (Z.pow_pos_nonneg 2 (b - a)); lia).
  nra.
Qed.
Lemma magnitude_pos m e : (0 < m)%Z -> (0 < magnitude m e)%Q.
Proof.
  intro H. unfold magnitude. pose proof (two_pos e). assert (1 <= inject_Z m)%Q by (change 1%Q with (inject_Z 1); apply inject_le; lia). nra.
Qed.
Lemma exponent_range m e : (0 < m < 2 ^ 53)%Z -> (-1074 <= e <= 971)%Z -> (-400 <= flog 10 (magnitude m e) < 400)%Z.
Proof.
  intros Hm He. assert (P := magnitude_pos m e ltac:(lia)). unfold magnitude in *. pose proof (two_pos e) as Pe.
  assert (M1 : (1 <= inject_Z m)%Q) by (change 1%Q with (inject_Z 1); apply inject_le; lia).
  assert (M2 : (inject_Z m <= inject_Z (2 ^ 53))%Q) by (apply inject_le; lia).
  assert (L : (two ^ (-1074) <= two ^ e)%Q) by (apply two_mono; lia).
  assert (U : (two ^ e <= two ^ 971)%Q) by (apply two_mono; lia).
  split.
  - apply flog_above; [lia|auto|]. assert (K : (inject_Z 10 ^ (-400) <= two ^ (-1074))%Q) by (apply Qle_bool_iff; vm_compute; reflexivity).
    set (a := (inject_Z 10 ^ (-400))%Q) in *. set (b := (two ^ (-1074))%Q) in *. set (c := (two ^ e)%Q) in *. nra.
  - apply flog_below; [lia|auto|].
    assert (K : (inject_Z (2 ^ 53) * two ^ 971 < inject_Z 10 ^ 400)%Q) by (apply Qnot_le_lt; intro C; apply Qle_bool_iff in C; vm_compute in C; discriminate).
    set (a := (inject_Z 10 ^ 400)%Q) in *. set (b := (two ^ 971)%Q) in *. set (c := (two ^ e)%Q) in *. set (M := inject_Z m) in *. set (n := inject_Z (2 ^ 53)) in *.
    assert (M * c <= n * b)%Q by nra. lra.
Qed.
Lemma g17_finite neg m e : is_double (DFin neg m e) ->
  m = 0%Z /\ e = (-1074)%Z /\ g17 (DFin neg m e) = sign_text neg ++ [48] \/
  (0 < m)%Z /\ exists t i f ex d x, g17 (DFin neg m e) = sign_text neg ++ t /\ shape t i f ex d x /\
    (ex = None \/ ex = Some x) /\ (-400 <= x <= 400)%Z /\
    (Qabs (inject_Z d * ten ^ (x - 16) - magnitude m e) <= magnitude m e * (1 # 20000000000000000))%Q.
Proof.
  intros (Hm & He & Hn). cbn [g17]. destruct (Z.eqb_spec m 0) as [E|E]; [left; split; auto; split; auto; lia|]. right. split; [lia|].
  destruct (digits17 (magnitude m e)) as [d x] eqn:Ed.
  destruct (digits17_spec _ d x (magnitude_pos m e ltac:(lia)) Ed) as (Hd & Hx & C).
  destruct (g17_shape d x Hd) as (i & f & ex & S & Ex). pose proof (exponent_range m e ltac:(lia) He).
  exists (g17_digits d x), i, f, ex, d, x. split; auto. split; auto. split; auto. split; [lia|exact C].
Qed.
Lemma g17_number d : is_double d -> finite d -> number (g17 d).
Proof.
  intros D Fi. destruct d as [neg m e| |]; [|contradiction|contradiction].
  destruct (g17_finite neg m e D) as [(_ & _ & ->)|(_ & t & i & f & ex & dd & x & -> & S & _)]; [|eapply shape_number; eauto].
  exists (sign_text neg), [48], [], []. split; [destruct neg; auto|]. split; [now left|]. split; [now left|]. split; [now left|]. reflexivity.
Qed.
Lemma g17_len d : is_double d -> (length (g17 d) <= 24)%nat.
Proof.
  intro D. destruct d as [neg m e|neg|neg]; [|destruct neg; cbn; lia|destruct neg; cbn; lia].
  assert (Ls : (length (sign_text neg) <= 1)%nat) by (destruct neg; cbn; lia).
  destruct (g17_finite neg m e D) as [(_ & _ & ->)|(_ & t & i & f & ex & dd & x & -> & S & Ex & Hx & _)]; rewrite !app_length; [cbn [length]; lia|].
  rewrite (sh_text _ _ _ _ _ _ S), !app_length. pose proof (sh_len _ _ _ _ _ _ S) as L.
  destruct Ex as [->| ->]; cbn [exp_text length]; [lia|].
  assert (Some x <> None) by discriminate. pose proof (sh_exp _ _ _ _ _ _ S H).
  destruct (exponent_ok x) as (sg & ds & -> & _ & _ & _ & _ & L3). cbn [length]. specialize (L3 ltac:(lia)). lia.
Qed.

(** ** Reading the text back *)
Lemma take_digits_ok l c r : Forall is_digit l -> ~ is_digit c -> take_digits (l ++ c :: r) = Ok (l, c :: r).
Proof.
  intros H Hc. induction H as [|a l Ha H IH]; cbn [app take_digits].
  - destruct (digitb c) eqn:E; auto. apply digitb_spec in E. contradiction.
  - replace (digitb a) with true by (symmetry; now apply digitb_spec). now rewrite IH.
Qed.
(** A byte at which a number text has ended. *)
Definition ends (c : N) : Prop := ~ is_digit c /\ c <> 46 /\ c <> 101 /\ c <> 69 /\ c <> 120 /\ c <> 88.
Lemma atof_exp_ok ex c r : ends c -> atof_exp (exp_text ex ++ c :: r) = Ok (exp_val ex).
Proof.
  intros (Hc & _ & Ec & Ec' & _). destruct ex as [x|]; cbn [exp_text exp_val].
  - destruct (exponent_ok x) as (sg & ds & -> & Hs & Hn & Hd & Hv & _). cbn [app atof_exp]. change (101 =? 101) with true. cbn [orb].
    assert (Es : ((sg =? 43) || (sg =? 45)) = true) by (destruct Hs as [[-> _]|[-> _]]; reflexivity). rewrite Es.
    rewrite take_digits_ok by auto. cbn [rbind fst]. rewrite Hv. destruct Hs as [[-> Hx]|[-> Hx]].
    + change (43 =? 45) with false. cbv iota. f_equal. lia.
    + change (45 =? 45) with true. cbv iota. f_equal. lia.
  - cbn [app atof_exp]. destruct (N.eqb_spec c 101); [congruence|]. destruct (N.eqb_spec c 69); [congruence|]. reflexivity.
Qed.
Lemma exp_text_head ex c r : ends c -> exists a l, exp_text ex ++ c :: r = a :: l /\ ~ is_digit a /\ a <> 46 /\ a <> 120 /\ a <> 88.
Proof.
  intros (H1 & H2 & H3 & H4 & H5 & H6). destruct ex as [x|]; cbn [exp_text app]; eexists _, _; (split; [reflexivity|]); auto.
  split; [unfold is_digit; lia|repeat split; discriminate].
Qed.
Lemma not_hex b l : b <> 120 -> b <> 88 -> forall a, is_hex (a :: b :: l) = false.
Proof. intros H1 H2 a. unfold is_hex. apply N.eqb_neq in H1, H2. rewrite H1, H2. apply andb_false_r. Qed.
Lemma not_hex_digits a i b l : Forall is_digit i -> b <> 120 -> b <> 88 -> is_hex (a :: i ++ b :: l) = false.
Proof.
  intros Hi H1 H2. destruct Hi as [|c i Hc Hi]; cbn [app]; apply not_hex; auto; unfold is_digit in Hc; lia.
Qed.
Lemma inject_mul a b : (inject_Z (a * b) == inject_Z a * inject_Z b)%Q.
Proof. rewrite inject_Z_mult. reflexivity. Qed.
Lemma to_double_eq neg q q' : (q == q')%Q -> (0 < q)%Q -> forall m e, (0 < m < 2 ^ 53)%Z -> (-1074 <= e <= 971)%Z -> (e = -1074 \/ 2 ^ 52 <= m)%Z ->
  (Qabs (q' - magnitude m e) <= magnitude m e * (1 # 20000000000000000))%Q -> to_double neg q = DFin neg m e.
Proof. intros E _ m e H1 H2 H3 H4. apply to_double_near; auto. now rewrite E. Qed.

Lemma atof_shape neg t i f ex d x m e c r : shape t i f ex d x -> ends c -> (0 < m < 2 ^ 53)%Z -> (-1074 <= e <= 971)%Z -> (e = -1074 \/ 2 ^ 52 <= m)%Z ->
  (Qabs (inject_Z d * ten ^ (x - 16) - magnitude m e) <= magnitude m e * (1 # 20000000000000000))%Q ->
  atof_magnitude neg (t ++ c :: r) = Ok (DFin neg m e).
Proof.
  intros S Hc Hm He Hn C. destruct S as [-> Hi Di Df (k & Hv & Hk) _ _].
  destruct (exp_text_head ex c r Hc) as (a & l & Ea & Ha & Ha' & Hx1 & Hx2).
  assert (Hi' : exists i0 ii, i = i0 :: ii /\ is_digit i0).
  { destruct i as [|i0 ii]; [destruct Hi as [|(? & ? & _ & _ & ?)]; discriminate|]. inversion Di; eauto. }
  destruct Hi' as (i0 & ii & -> & Hi0). unfold is_digit in Hi0. unfold atof_magnitude.
  replace (starts (txt "inf") (((i0 :: ii) ++ dotted f ++ exp_text ex) ++ c :: r)) with false
    by (change (txt "inf") with [105; 110; 102]; cbn [app starts]; destruct (N.eqb_spec 105 i0); [lia|reflexivity]).
  replace (starts (txt "nan") (((i0 :: ii) ++ dotted f ++ exp_text ex) ++ c :: r)) with false
    by (change (txt "nan") with [110; 97; 110]; cbn [app starts]; destruct (N.eqb_spec 110 i0); [lia|reflexivity]).
  rewrite <- !app_assoc, Ea.
  replace (is_hex ((i0 :: ii) ++ dotted f ++ a :: l)) with false
    by (symmetry; inversion Di; subst; destruct f; cbn [dotted app]; apply not_hex_digits; auto; discriminate).
  assert (T : take_digits ((i0 :: ii) ++ dotted f ++ a :: l) = Ok (i0 :: ii, dotted f ++ a :: l)).
  { destruct f as [|f0 f]; [exact (take_digits_ok (i0 :: ii) a l Di Ha)|].
    apply (take_digits_ok (i0 :: ii) 46 ((f0 :: f) ++ a :: l) Di). unfold is_digit. lia. }
  rewrite T. cbn [rbind fst snd].
  assert (G : atof_fraction (dotted f ++ a :: l) = Ok (f, a :: l)).
  { destruct f as [|f0 f].
    - cbn [dotted app atof_fraction]. destruct (N.eqb_spec a 46); [contradiction|reflexivity].
    - cbn [dotted]. change ((46 :: f0 :: f) ++ a :: l) with (46 :: ((f0 :: f) ++ a :: l)). cbn [atof_fraction]. change (46 =? 46) with true.
      now apply take_digits_ok. }
  rewrite G. cbn [rbind fst snd]. cbn [app]. rewrite <- Ea, atof_exp_ok by auto. cbn [rbind]. f_equal.
  change (i0 :: ii ++ f) with ((i0 :: ii) ++ f).
  rewrite app_assoc, dnum_app, dnum_zeros, repeat_length, Z.add_0_r in Hv.
  apply to_double_near; auto.
  enough (E : (inject_Z (dnum ((i0 :: ii) ++ f)) * ten ^ (exp_val ex - Z.of_nat (length f)) == inject_Z d * ten ^ (x - 16))%Q) by (now rewrite E).
  rewrite <- Hv. rewrite inject_mul, base_pow by lia. change (inject_Z 10) with ten. rewrite <- Qmult_assoc, <- ten_plus.
  now replace (Z.of_nat k + (x - 16))%Z with (exp_val ex - Z.of_nat (length f))%Z by lia.
Qed.
Lemma g17_head_digit t i f ex d x : shape t i f ex d x -> exists c l, t = c :: l /\ is_digit c.
Proof.
  intros [-> Hi Di _ _ _ _]. destruct i as [|c i]; [destruct Hi as [|(? & ? & _ & _ & ?)]; discriminate|].
  inversion Di; subst. cbn [app]. eauto.
Qed.
Lemma atof_sign neg c l : is_digit c -> atof (sign_text neg ++ c :: l) = atof_magnitude neg (c :: l).
Proof.
  intro H. unfold is_digit in H. unfold atof. destruct neg; cbn [sign_text app skip_space].
  - reflexivity.
  - replace (isspace c) with false by (symmetry; unfold isspace; bools; lia).
    destruct (N.eqb_spec c 45); [lia|]. destruct (N.eqb_spec c 43); [lia|]. reflexivity.
Qed.
Theorem atof_g17 d c r : is_double d -> finite d -> ends c -> atof (g17 d ++ c :: r) = Ok d.
Proof.
  intros D Fi Hc. destruct d as [neg m e| |]; [|contradiction|contradiction].
  destruct (g17_finite neg m e D) as [(-> & -> & ->)|(Pm & t & i & f & ex & dd & x & -> & S & Ex & Hx & C)].
  - rewrite <- app_assoc. cbn [app]. rewrite atof_sign by (unfold is_digit; lia). unfold atof_magnitude.
    change (starts (txt "inf") (48 :: c :: r)) with false. change (starts (txt "nan") (48 :: c :: r)) with false. cbv iota.
    destruct Hc as (H1 & H2 & H3 & H4 & H5 & H6). rewrite not_hex by auto. change (48 :: c :: r) with ([48] ++ c :: r).
    rewrite take_digits_ok by (auto; constructor; auto; unfold is_digit; lia). cbn [rbind fst snd atof_fraction].
    destruct (N.eqb_spec c 46); [contradiction|]. cbn [rbind fst snd app atof_exp].
    destruct (N.eqb_spec c 101); [congruence|]. destruct (N.eqb_spec c 69); [congruence|]. reflexivity.
  - destruct D as (Hm & He & Hn). destruct (g17_head_digit _ _ _ _ _ _ S) as (a & l & E & Ha).
    rewrite <- app_assoc. rewrite E at 1. cbn [app]. rewrite atof_sign by auto. change (a :: l ++ c :: r) with ((a :: l) ++ c :: r).
    rewrite <- E. eapply atof_shape; eauto. lia.
Qed.
