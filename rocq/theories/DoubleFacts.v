(** What atof computes, and SetDouble / GetDouble. *)
From Coq Require Import QArith Qpower Qround Qabs Lqa.
From Verif Require Import Base Spec Lex LexProofs Alloc Mem Api AllocProofs MemProofs Dom Steps StrBuf StringifyProofs ParseProofs ParseTop
  Effect CacheProofs SetProofs Update KeyProofs GetProofs CopyProofs IntProofs EscProofs Vocab ParseFacts PrintFacts ReadFacts SetFacts
  Double DoubleProofs.
Open Scope N_scope.

(** ** Specification: the value of a number text, and its nearest double *)
(** The exponent part and its value. *)
Definition exp_denotes (e : bytes) (x : Z) : Prop :=
  e = [] /\ x = 0%Z \/
  exists e0 sg ds, (e0 = 101 \/ e0 = 69) /\ ds <> [] /\ Forall is_digit ds /\ e = e0 :: sg ++ ds /\
    ((sg = [] \/ sg = [43]) /\ x = dnum ds \/ sg = [45] /\ x = (- dnum ds)%Z).
(** [b] is a number text: its sign and its absolute value. *)
Definition dec_value (b : bytes) (neg : bool) (q : Q) : Prop :=
  exists i f e x, b = (if neg then [45] else []) ++ i ++ (match f with [] => [] | _ => 46 :: f end) ++ e /\
    int_part i /\ Forall is_digit f /\ exp_denotes e x /\
    (q == inject_Z (dnum (i ++ f)) * (10 # 1) ^ (x - Z.of_nat (length f)))%Q.
(** Rounding as IEEE 754 has it: [d] is nearer to (-1)^neg * q than any other double, or as
    near and has an even significand; infinity from the middle between the greatest double
    and the next power of two on. *)
Definition farthest : Q := (inject_Z (2 ^ 54 - 1) * two ^ 970)%Q.
Definition rounds (neg : bool) (q : Q) (d : double) : Prop :=
  match d with
  | DFin n m e => n = neg /\ is_double d /\ (q < farthest)%Q /\
      forall m' e', is_double (DFin neg m' e') -> (m', e') <> (m, e) ->
        (Qabs (q - magnitude m e) < Qabs (q - magnitude m' e'))%Q \/
        (Qabs (q - magnitude m e) == Qabs (q - magnitude m' e'))%Q /\ Z.even m = true
  | DInf n => n = neg /\ (farthest <= q)%Q
  | DNan _ => False
  end.

Lemma nearest_best q z : (Qabs (q - inject_Z (nearest q)) <= Qabs (q - inject_Z z))%Q.
Proof.
  pose proof (nearest_close q) as C. destruct (Z.eq_dec z (nearest q)) as [->|N]; [lra|].
  destruct (Qlt_le_dec (Qabs (q - inject_Z z)) (1 # 2)) as [L|L]; [|lra].
  apply nearest_unique in L. congruence.
Qed.
Lemma nearest_even q z : (Qabs (q - inject_Z z) <= Qabs (q - inject_Z (nearest q)))%Q -> z = nearest q \/ Z.even (nearest q) = true.
Proof.
  intro H. pose proof (nearest_close q) as C. destruct (Z.eq_dec z (nearest q)) as [->|N]; [now left|]. right.
  destruct (Qlt_le_dec (Qabs (q - inject_Z z)) (1 # 2)) as [L|L]; [apply nearest_unique in L; congruence|].
  assert (X : (Qabs (q - inject_Z (nearest q)) == 1 # 2)%Q) by lra. clear - X. revert X.
  pose proof (Qfloor_le q) as F1. pose proof (Qlt_floor q) as F2. rewrite inject_Z_plus in F2. change (inject_Z 1) with 1%Q in F2.
  unfold nearest. destruct (Qcompare_spec (q - inject_Z (Qfloor q)) (1 # 2)) as [E|E|E].
  - intros _. destruct (Z.even (Qfloor q)) eqn:Ev; auto. now rewrite Z.add_1_r, Z.even_succ, <- Z.negb_even, Ev.
  - rewrite Qabs_pos by lra. intro X. rewrite X in E. lra.
  - rewrite inject_Z_plus. change (inject_Z 1) with 1%Q. rewrite Qabs_neg by lra. intro X. lra.
Qed.
Lemma scale_abs x y u : (0 < u)%Q -> (Qabs (x * u - y * u) == Qabs (x - y) * u)%Q.
Proof.
  intro H. setoid_replace (x * u - y * u)%Q with ((x - y) * u)%Q by ring. rewrite Qabs_Qmult. now rewrite (Qabs_pos u) by lra.
Qed.
Lemma to_double_rounds neg q : (0 <= q)%Q -> rounds neg q (to_double neg q).
Proof.
  intro Hq. unfold to_double. destruct (Qeq_bool q 0) eqn:E0.
  { apply Qeq_bool_eq in E0. split; auto. split; [cbn; lia|]. split; [rewrite E0; reflexivity|]. intros m' e' D NE. left. unfold magnitude.
    assert (Z0 : (Qabs (q - inject_Z 0 * two ^ (-1074)) == 0)%Q) by (rewrite E0, Qmult_0_l; reflexivity). rewrite Z0, E0.
    assert (M : (0 < m')%Z) by (destruct D as (? & ? & ?), (Z.eq_dec m' 0) as [->|]; [exfalso; apply NE; f_equal; lia|lia]).
    pose proof (magnitude_pos m' e' M) as G. unfold magnitude in G. rewrite Qabs_neg; lra. }
  assert (Hp : (0 < q)%Q) by (apply Qeq_bool_neq in E0; lra). set (k := flog 2 q).
  destruct (flog_spec 2 ltac:(lia) q Hp) as [L U]. fold k in L, U. change (inject_Z 2) with two in L, U.
  cbv zeta. set (e := Z.max (-1074) (k - 52)).
  assert (Ue := two_pos e). assert (P : (two ^ e * two ^ (- e) == 1)%Q) by (rewrite <- two_plus; now replace (e + - e)%Z with 0%Z by lia).
  set (t := (q * two ^ (- e))%Q). assert (Et : (q == t * two ^ e)%Q) by (unfold t; rewrite <- Qmult_assoc, (Qmult_comm (two ^ (- e))), P; ring).
  assert (Tp : (0 < t)%Q) by (unfold t; pose proof (two_pos (- e)); nra).
  assert (Tu : (t < inject_Z (2 ^ 53))%Q).
  { apply (Qmult_lt_r _ _ (two ^ e) Ue). rewrite <- Et. change (inject_Z (2 ^ 53)) with (two ^ 53)%Q. rewrite <- two_plus.
    pose proof (two_mono (k + 1) (53 + e)). assert (K : (k + 1 <= 53 + e)%Z) by lia. specialize (H K). lra. }
  assert (Tl : (e <> -1074)%Z -> (inject_Z (2 ^ 52) <= t)%Q).
  { intro Ne. apply (Qmult_le_r _ _ (two ^ e) Ue). rewrite <- Et. change (inject_Z (2 ^ 52)) with (two ^ 52)%Q. rewrite <- two_plus.
    replace (52 + e)%Z with k by lia. exact L. }
  assert (R : (0 <= nearest t <= 2 ^ 53)%Z) by (apply nearest_range; split; auto; change (inject_Z 0) with 0%Q; lra).
  assert (Rl : (e <> -1074)%Z -> (2 ^ 52 <= nearest t)%Z).
  { intro Ne. apply (nearest_range t (2 ^ 52) (2 ^ 53)). auto. }
  assert (Best : forall m' e', is_double (DFin neg m' e') ->
    (Qabs (q - inject_Z (nearest t) * two ^ e) < Qabs (q - magnitude m' e'))%Q \/
    (Qabs (q - inject_Z (nearest t) * two ^ e) == Qabs (q - magnitude m' e'))%Q /\
      (Z.even (nearest t) = true \/ e <= e' /\ m' * 2 ^ (e' - e) = nearest t)%Z).
  { intros m' e' (Hm' & He' & _). unfold magnitude. rewrite !Et. rewrite scale_abs by auto.
    destruct (Z.lt_ge_cases e' e) as [Le|Ge].
    - (* a smaller exponent: below 2^52 * 2^e, which is below q *)
      left. assert (Ne : (e <> -1074)%Z) by lia. specialize (Tl Ne).
      assert (Em : (inject_Z m' * two ^ e' < inject_Z (2 ^ 52) * two ^ e)%Q).
      { assert (M : (inject_Z m' < inject_Z (2 ^ 53))%Q) by (rewrite <- Zlt_Qlt; lia). pose proof (two_pos e').
        pose proof (two_mono (53 + e') (52 + e)). assert (K : (53 + e' <= 52 + e)%Z) by lia. specialize (H0 K).
        rewrite !two_plus in H0. change (two ^ 53)%Q with (inject_Z (2 ^ 53)) in H0. change (two ^ 52)%Q with (inject_Z (2 ^ 52)) in H0.
        set (a := (two ^ e')%Q) in *. set (b := (two ^ e)%Q) in *. set (mm := inject_Z m') in *. set (n3 := inject_Z (2 ^ 53)) in *. nra. }
      pose proof (nearest_best t (2 ^ 52)) as B. rewrite (Qabs_pos (t - inject_Z (2 ^ 52))) in B by lra.
      assert (t * two ^ e - inject_Z m' * two ^ e' <= Qabs (t * two ^ e - inject_Z m' * two ^ e'))%Q by apply Qle_Qabs.
      set (a := Qabs (t - inject_Z (nearest t))) in *. set (b := (two ^ e)%Q) in *. nra.
    - (* a multiple of 2^e *)
      assert (Em : (inject_Z m' * two ^ e' == inject_Z (m' * 2 ^ (e' - e)) * two ^ e)%Q).
      { replace e' with ((e' - e) + e)%Z at 1 by lia. rewrite two_plus, inject_mul, base_pow by lia. change (inject_Z 2) with two. ring. }
      rewrite Em, scale_abs by auto. pose proof (nearest_best t (m' * 2 ^ (e' - e))) as B.
      destruct (Qlt_le_dec (Qabs (t - inject_Z (nearest t))) (Qabs (t - inject_Z (m' * 2 ^ (e' - e))))) as [L1|L1].
      + left. now apply Qmult_lt_r.
      + right. split; [assert (X : (Qabs (t - inject_Z (nearest t)) == Qabs (t - inject_Z (m' * 2 ^ (e' - e))))%Q) by lra; now rewrite X|].
        destruct (nearest_even _ _ L1) as [X|X]; [right; split; [lia|exact X]|now left]. }
  destruct (Z.eqb_spec (nearest t) (2 ^ 53)) as [En|En].
  - assert (EM : (magnitude (2 ^ 52) (e + 1) == inject_Z (nearest t) * two ^ e)%Q).
    { rewrite En. unfold magnitude. rewrite two_plus. change (two ^ 1)%Q with (2 # 1). change (inject_Z (2 ^ 53)) with (inject_Z (2 ^ 52) * (2 # 1))%Q. ring. }
    destruct (Z.ltb_spec 971 (e + 1)) as [Lt|Lt].
    + split; auto. unfold farthest. assert (e = 971 \/ 971 < e)%Z as [Ee|Ee] by lia.
      * pose proof (nearest_close t) as C. rewrite En in C. apply Qabs_Qle_condition in C. rewrite Et, Ee.
        change 971%Z with (1 + 970)%Z. rewrite two_plus. change (two ^ 1)%Q with (2 # 1). pose proof (two_pos 970).
        change (inject_Z (2 ^ 53)) with (9007199254740992 # 1) in C. change (inject_Z (2 ^ 54 - 1)) with (18014398509481983 # 1).
        set (b := (two ^ 970)%Q) in *. nra.
      * assert (Ne : (e <> -1074)%Z) by lia. specialize (Tl Ne). rewrite Et. pose proof (two_mono 972 e ltac:(lia)).
        change 972%Z with (2 + 970)%Z in H. rewrite two_plus in H. change (two ^ 2)%Q with (4 # 1) in H. pose proof (two_pos 970).
        change (inject_Z (2 ^ 52)) with (4503599627370496 # 1) in Tl. change (inject_Z (2 ^ 54 - 1)) with (18014398509481983 # 1).
        set (b := (two ^ 970)%Q) in *. set (a := (two ^ e)%Q) in *. nra.
    + split; auto. split; [cbn; lia|]. split.
      { rewrite Et. unfold farthest. pose proof (two_mono e 970 ltac:(lia)). pose proof (two_pos e).
        change (inject_Z (2 ^ 53)) with (9007199254740992 # 1) in Tu. change (inject_Z (2 ^ 54 - 1)) with (18014398509481983 # 1).
        set (b := (two ^ 970)%Q) in *. set (a := (two ^ e)%Q) in *. nra. }
      intros m' e' D NE. rewrite EM. destruct (Best m' e' D) as [X|[X _]]; [now left|right]. split; auto.
  - destruct (Z.ltb_spec 971 e) as [Lt|Lt].
    + split; auto. unfold farthest. assert (Ne : (e <> -1074)%Z) by lia. specialize (Tl Ne). rewrite Et. pose proof (two_mono 972 e ltac:(lia)).
      change 972%Z with (2 + 970)%Z in H. rewrite two_plus in H. change (two ^ 2)%Q with (4 # 1) in H. pose proof (two_pos 970).
      change (inject_Z (2 ^ 52)) with (4503599627370496 # 1) in Tl. change (inject_Z (2 ^ 54 - 1)) with (18014398509481983 # 1).
      set (b := (two ^ 970)%Q) in *. set (a := (two ^ e)%Q) in *. nra.
    + split; auto. split; [cbn [is_double]; split; [lia|]; split; [lia|]; destruct (Z.eq_dec e (-1074)) as [|Ne]; [auto|right; auto]|]. split.
      { rewrite Et. unfold farthest. change (inject_Z (2 ^ 53)) with (9007199254740992 # 1) in Tu. pose proof (two_pos e). pose proof (two_pos 970).
        change (inject_Z (2 ^ 54 - 1)) with (18014398509481983 # 1). assert (e = 971 \/ e <= 970)%Z as [Ee|Ee] by lia.
        - rewrite Ee. change 971%Z with (1 + 970)%Z. rewrite two_plus. change (two ^ 1)%Q with (2 # 1).
          assert (T2 : (t < 18014398509481983 # 2)%Q).
          { destruct (Qlt_le_dec t (18014398509481983 # 2)) as [|G]; auto. exfalso. assert (K : nearest t = (2 ^ 53 - 1)%Z).
            { pose proof (nearest_close t) as C. apply Qabs_Qle_condition in C. assert (2 ^ 53 - 2 < nearest t)%Z; [|lia].
              rewrite Zlt_Qlt. change (inject_Z (2 ^ 53 - 2)) with (9007199254740990 # 1). lra. }
            destruct (nearest_even t (2 ^ 53)) as [X|X]; [|congruence|rewrite K in X; discriminate].
            rewrite K. change (inject_Z (2 ^ 53)) with (9007199254740992 # 1). change (inject_Z (2 ^ 53 - 1)) with (9007199254740991 # 1).
            rewrite Qabs_neg, Qabs_pos by lra. lra. }
          set (b := (two ^ 970)%Q) in *. nra.
        - pose proof (two_mono e 970 Ee). set (b := (two ^ 970)%Q) in *. set (a := (two ^ e)%Q) in *. nra. }
      intros m' e' D NE. destruct (Best m' e' D) as [X|[X Y]]; [now left|right]. split; [exact X|]. destruct Y as [Y|[Y1 Y2]]; auto.
      exfalso. destruct (Z.eq_dec e' e) as [->|Ne'].
      * apply NE. rewrite Z.sub_diag in Y2. f_equal. lia.
      * destruct D as (D1 & D2 & [D3|D3]); [lia|]. assert (2 <= 2 ^ (e' - e))%Z by (apply (Z.pow_le_mono_r 2 1); lia). nia.
Qed.

(** ** atof on a number text, whatever ends it *)
Lemma exp_denotes_atof e x c r : exp_denotes e x -> ends c -> atof_exp (e ++ c :: r) = Ok x.
Proof.
  intros He (Hc & _ & Ec & Ec' & _). destruct He as [[-> ->]|(e0 & sg & ds & H0 & Hn & Hd & -> & Hx)].
  - cbn [app atof_exp]. destruct (N.eqb_spec c 101); [congruence|]. destruct (N.eqb_spec c 69); [congruence|]. reflexivity.
  - cbn [app atof_exp]. assert (E0 : ((e0 =? 101) || (e0 =? 69)) = true) by (destruct H0 as [->| ->]; reflexivity). rewrite E0.
    destruct ds as [|d ds]; [congruence|]. inversion Hd as [|? ? Hd0 Hd1]; subst. unfold is_digit in Hd0.
    destruct Hx as [[[->| ->] ->]|[-> ->]]; cbn [app].
    + destruct (N.eqb_spec d 43); [lia|]. destruct (N.eqb_spec d 45); [lia|]. cbn [orb].
      change (d :: ds ++ c :: r) with ((d :: ds) ++ c :: r). rewrite take_digits_ok by auto. reflexivity.
    + change ((43 =? 43) || (43 =? 45)) with true. cbv iota. change (d :: ds ++ c :: r) with ((d :: ds) ++ c :: r). rewrite take_digits_ok by auto. reflexivity.
    + change ((45 =? 43) || (45 =? 45)) with true. cbv iota. change (d :: ds ++ c :: r) with ((d :: ds) ++ c :: r). rewrite take_digits_ok by auto. reflexivity.
Qed.
Lemma exp_denotes_head e x c r : exp_denotes e x -> ends c -> exists a l, e ++ c :: r = a :: l /\ ~ is_digit a /\ a <> 46 /\ a <> 120 /\ a <> 88.
Proof.
  intros He (Hc & Hc' & _ & _ & H5 & H6). destruct He as [[-> ->]|(e0 & sg & ds & H0 & Hn & Hd & -> & Hx)]; cbn [app]; eexists _, _; (split; [reflexivity|]); auto.
  destruct H0 as [->| ->]; (split; [unfold is_digit; lia|repeat split; discriminate]).
Qed.
Lemma dnum_nonneg l : (0 <= dnum l)%Z.
Proof. induction l as [|c l IH]; [vm_compute; discriminate|]. rewrite dnum_cons. pose proof (Z.pow_nonneg 10 (Z.of_nat (length l))). nia. Qed.
Lemma rounds_eq neg q q' d : (q == q')%Q -> rounds neg q d -> rounds neg q' d.
Proof.
  intros E H. destruct d as [n m e|n|n]; cbn [rounds] in *; auto.
  - destruct H as (H1 & H2 & H3 & H4). split; auto. split; auto. split; [now rewrite <- E|]. intros m' e' D NE. specialize (H4 m' e' D NE). now rewrite E in H4.
  - destruct H as (H1 & H2). split; auto. now rewrite E in H2.
Qed.
(** Doubles are apart by at least the step of the smaller one. *)
Lemma step_up m e m' e' neg : is_double (DFin neg m e) -> is_double (DFin neg m' e') -> (magnitude m e < magnitude m' e')%Q ->
  (magnitude (m + 1) e <= magnitude m' e')%Q.
Proof.
  intros (A1 & A2 & A3) (B1 & B2 & B3) L. unfold magnitude in *. pose proof (two_pos e) as P. pose proof (two_pos e') as P'.
  destruct (Z.lt_ge_cases e' e) as [Le|Ge].
  - exfalso. destruct A3 as [A3|A3]; [lia|]. pose proof (two_mono (53 + e') (52 + e) ltac:(lia)) as X. rewrite !two_plus in X.
    assert (M : (inject_Z m' < two ^ 53)%Q) by (change (two ^ 53)%Q with (inject_Z (2 ^ 53)); rewrite <- Zlt_Qlt; lia).
    assert (M' : (two ^ 52 <= inject_Z m)%Q) by (change (two ^ 52)%Q with (inject_Z (2 ^ 52)); now apply inject_le).
    set (a := (two ^ e)%Q) in *. set (b := (two ^ e')%Q) in *. set (x := (two ^ 53)%Q) in *. set (y := (two ^ 52)%Q) in *.
    set (mm := inject_Z m) in *. set (mm' := inject_Z m') in *. clearbody x y mm mm' a b. nra.
  - assert (Em : (inject_Z m' * two ^ e' == inject_Z (m' * 2 ^ (e' - e)) * two ^ e)%Q).
    { replace e' with ((e' - e) + e)%Z at 1 by lia. rewrite two_plus, inject_mul, base_pow by lia. change (inject_Z 2) with two. ring. }
    rewrite Em in *. apply Qmult_lt_r in L; auto. apply Qmult_le_r; auto. rewrite <- Zlt_Qlt in L. apply inject_le. lia.
Qed.
Lemma magnitude_inj m e m' e' neg : is_double (DFin neg m e) -> is_double (DFin neg m' e') -> (magnitude m e == magnitude m' e')%Q -> (m, e) = (m', e').
Proof.
  assert (G : forall m e m' e', is_double (DFin neg m e) -> is_double (DFin neg m' e') -> (e <= e')%Z -> (magnitude m e == magnitude m' e')%Q -> (m, e) = (m', e')).
  { clear. intros m e m' e' (A1 & A2 & A3) (B1 & B2 & B3) Ge E. unfold magnitude in E. pose proof (two_pos e) as P.
    assert (Em : (inject_Z m' * two ^ e' == inject_Z (m' * 2 ^ (e' - e)) * two ^ e)%Q).
    { replace e' with ((e' - e) + e)%Z at 1 by lia. rewrite two_plus, inject_mul, base_pow by lia. change (inject_Z 2) with two. ring. }
    rewrite Em in E. apply Qmult_inj_r in E; [|lra]. apply (proj1 (inject_Z_injective _ _)) in E.
    destruct (Z.eq_dec e e') as [->|Ne]; [rewrite Z.sub_diag in E; f_equal; lia|exfalso].
    assert (2 <= 2 ^ (e' - e))%Z by (apply (Z.pow_le_mono_r 2 1); lia). destruct B3 as [B3|B3]; [lia|nia]. }
  intros A B E. destruct (Z.le_ge_cases e e'); [now apply G|]. symmetry. apply G; auto. now symmetry.
Qed.
(** Only one double is the rounding of [q]. *)
Lemma rounds_unique neg q d d' : rounds neg q d -> rounds neg q d' -> d = d'.
Proof.
  destruct d as [n m e|n|n], d' as [n' m' e'|n' |n']; cbn [rounds]; try tauto.
  - intros (-> & D & _ & B) (-> & D' & _ & B'). destruct (Z.eq_dec m m') as [E1|E1]; [destruct (Z.eq_dec e e') as [E2|E2]; [congruence|]|].
    1: assert (NE : (m', e') <> (m, e)) by congruence. 2: assert (NE : (m', e') <> (m, e)) by congruence.
    all: exfalso; assert (NE' : (m, e) <> (m', e')) by congruence;
      destruct (B _ _ D' NE) as [X|[X Y]], (B' _ _ D NE') as [X'|[X' Y']]; [lra|lra|lra|]; clear E1; try clear E2;
      destruct (Q_dec (magnitude m e) (magnitude m' e')) as [[L|L]|L]; [| |apply NE'; exact (magnitude_inj _ _ _ _ _ D D' L)].
    1, 3: assert (S1 : is_double (DFin neg (m + 1) e)) by
      (destruct D as (D1 & D2 & D3); split; [|split; [exact D2|lia]]; split; [lia|]; destruct (Z.eq_dec (m + 1) (2 ^ 53)) as [K|K]; [|lia];
       replace m with (2 ^ 53 - 1)%Z in Y by lia; discriminate);
      pose proof (step_up _ _ _ _ _ D D' L) as U; destruct (Qlt_le_dec (magnitude (m + 1) e) (magnitude m' e')) as [W|W];
      [|assert (V : ((m + 1)%Z, e) = (m', e')) by (apply (magnitude_inj _ _ _ _ neg S1 D'); lra); injection V as V1 V2; subst m' e';
        rewrite Z.add_1_r, Z.even_succ, <- Z.negb_even, Y in Y'; discriminate];
      assert (V0 : (magnitude m e < magnitude (m + 1) e)%Q) by
        (unfold magnitude; apply Qmult_lt_r; [apply two_pos|rewrite <- Zlt_Qlt; lia]);
      assert (V1 : ((m + 1)%Z, e) <> (m, e)) by (intro V1; injection V1; lia);
      pose proof (B _ _ S1 V1) as V2; clear B B';
      revert V2 X; apply (Qabs_case (q - magnitude m e)); apply (Qabs_case (q - magnitude m' e')); apply (Qabs_case (q - magnitude (m + 1) e)); intros; lra.
    all: assert (S1 : is_double (DFin neg (m' + 1) e')) by
      (destruct D' as (D1 & D2 & D3); split; [|split; [exact D2|lia]]; split; [lia|]; destruct (Z.eq_dec (m' + 1) (2 ^ 53)) as [K|K]; [|lia];
       replace m' with (2 ^ 53 - 1)%Z in Y' by lia; discriminate);
      pose proof (step_up _ _ _ _ _ D' D L) as U; destruct (Qlt_le_dec (magnitude (m' + 1) e') (magnitude m e)) as [W|W];
      [|assert (V : ((m' + 1)%Z, e') = (m, e)) by (apply (magnitude_inj _ _ _ _ neg S1 D); lra); injection V as V1 V2; subst m e;
        rewrite Z.add_1_r, Z.even_succ, <- Z.negb_even, Y' in Y; discriminate];
      assert (V0 : (magnitude m' e' < magnitude (m' + 1) e')%Q) by
        (unfold magnitude; apply Qmult_lt_r; [apply two_pos|rewrite <- Zlt_Qlt; lia]);
      assert (V1 : ((m' + 1)%Z, e') <> (m', e')) by (intro V1; injection V1; lia);
      pose proof (B' _ _ S1 V1) as V2; clear B B';
      revert V2 X; apply (Qabs_case (q - magnitude m e)); apply (Qabs_case (q - magnitude m' e')); apply (Qabs_case (q - magnitude (m' + 1) e')); intros; lra.
  - intros (_ & _ & L & _) (_ & G). lra.
  - intros (_ & G) (_ & _ & L & _). lra.
  - intros (-> & _) (-> & _). reflexivity.
Qed.
Lemma int_part_head i : int_part i -> exists c l, i = c :: l /\ is_digit c /\ Forall is_digit i.
Proof.
  intros [->|(d & ds & H1 & H2 & ->)]; eexists _, _; (split; [reflexivity|]); unfold is_digit; (split; [lia|]); constructor; auto; unfold is_digit; lia.
Qed.
(** [b] is a number text and [d] the double it stands for: a nearest one, ties to even. *)
Definition real_value (b : bytes) (d : double) : Prop :=
  exists (neg : bool) i f e x, b = (if neg then [45] else []) ++ i ++ (match f with [] => [] | _ => 46 :: f end) ++ e /\
    int_part i /\ Forall is_digit f /\ exp_denotes e x /\
    d = to_double neg (inject_Z (dnum (i ++ f)) * (10 # 1) ^ (x - Z.of_nat (length f)))%Q.
Lemma decimal_nonneg ds x : (0 <= inject_Z (dnum ds) * (10 # 1) ^ x)%Q.
Proof.
  pose proof (dnum_nonneg ds) as N. apply inject_le in N. change (inject_Z 0) with 0%Q in N. pose proof (ten_pos x).
  change (10 # 1)%Q with ten. nra.
Qed.
Lemma dec_real b neg q : dec_value b neg q -> exists d, real_value b d /\ rounds neg q d.
Proof.
  intros (i & f & e & x & Eb & Hi & Hf & He & Eq). eexists. split; [exists neg, i, f, e, x; auto|].
  eapply rounds_eq; [symmetry; exact Eq|]. apply to_double_rounds, decimal_nonneg.
Qed.
Lemma real_dec b d : real_value b d -> exists neg q, dec_value b neg q /\ rounds neg q d.
Proof.
  intros (neg & i & f & e & x & Eb & Hi & Hf & He & ->). eexists neg, _. split; [exists i, f, e, x; repeat (split; [eassumption|]); reflexivity|].
  apply to_double_rounds, decimal_nonneg.
Qed.
Lemma atof_real b d c r : real_value b d -> ends c -> atof (b ++ c :: r) = Ok d.
Proof.
  intros (neg & i & f & e & x & -> & Hi & Hf & He & ->) Hc. destruct (int_part_head i Hi) as (i0 & ii & -> & Hi0 & Di).
  destruct (exp_denotes_head e x c r He Hc) as (a & l & Ea & Ha & Ha' & Hx1 & Hx2).
  change (if neg then [45] else []) with (sign_text neg). rewrite <- !app_assoc, Ea. cbn [app]. rewrite atof_sign by auto. unfold is_digit in Hi0.
  unfold atof_magnitude. change (txt "inf") with [105; 110; 102]. change (txt "nan") with [110; 97; 110]. cbn [starts].
  destruct (N.eqb_spec 105 i0); [lia|]. destruct (N.eqb_spec 110 i0); [lia|]. cbn [andb].
  replace (is_hex (i0 :: ii ++ match f with [] => [] | _ => 46 :: f end ++ a :: l)) with false
    by (symmetry; inversion Di; subst; destruct f; cbn [app]; apply not_hex_digits; auto; discriminate).
  assert (T : take_digits (i0 :: ii ++ match f with [] => [] | _ => 46 :: f end ++ a :: l) = Ok (i0 :: ii, dotted f ++ a :: l)).
  { change (i0 :: ii ++ ?y) with ((i0 :: ii) ++ y). destruct f as [|f0 f]; [exact (take_digits_ok (i0 :: ii) a l Di Ha)|].
    apply (take_digits_ok (i0 :: ii) 46 ((f0 :: f) ++ a :: l) Di). unfold is_digit. lia. }
  rewrite T. cbn [rbind fst snd].
  assert (G : atof_fraction (dotted f ++ a :: l) = Ok (f, a :: l)).
  { destruct f as [|f0 f].
    - cbn [dotted app atof_fraction]. destruct (N.eqb_spec a 46); [contradiction|reflexivity].
    - cbn [dotted]. change ((46 :: f0 :: f) ++ a :: l) with (46 :: ((f0 :: f) ++ a :: l)). cbn [atof_fraction]. change (46 =? 46) with true.
      now apply take_digits_ok. }
  rewrite G. cbn [rbind fst snd app]. rewrite <- Ea, (exp_denotes_atof e x c r He Hc). cbn [rbind]. reflexivity.
Qed.
Lemma atof_number b neg q c r : dec_value b neg q -> ends c -> exists d, atof (b ++ c :: r) = Ok d /\ rounds neg q d.
Proof. intros H Hc. destruct (dec_real b neg q H) as (d & R & K). exists d. split; auto. now apply atof_real. Qed.
(** A text stands for one double only. *)
Lemma real_unique b d d' : real_value b d -> real_value b d' -> d = d'.
Proof.
  intros H H'. assert (E : ends 0) by (unfold ends, is_digit; lia).
  pose proof (atof_real b d 0 [] H E) as K. rewrite (atof_real b d' 0 [] H' E) in K. congruence.
Qed.
(** [real_value] in the words of the value and its rounding. *)
Lemma real_value_iff b d : real_value b d <-> exists neg q, dec_value b neg q /\ rounds neg q d.
Proof.
  split; [apply real_dec|]. intros (neg & q & H & R). destruct (dec_real b neg q H) as (d' & V & R'). now rewrite (rounds_unique neg q d d' R R').
Qed.
(** Every number text has a value. *)
Lemma number_value b : number b -> exists neg q, dec_value b neg q.
Proof.
  intros (sg & i & f & e & Hs & Hi & Hf & He & ->).
  assert (Ef : exists f', f = match f' with [] => [] | _ => 46 :: f' end /\ Forall is_digit f').
  { destruct Hf as [->|(ds & Hn & Hd & ->)]; [exists []; auto|]. exists ds. destruct ds; [congruence|auto]. }
  destruct Ef as (f' & -> & Hf').
  assert (Ee : exists x, exp_denotes e x).
  { destruct He as [->|(e0 & sg0 & ds & H1 & H2 & H3 & H4 & ->)]; [exists 0%Z; left; auto|].
    destruct H2 as [->|[->| ->]]; [exists (dnum ds)|exists (dnum ds)|exists (- dnum ds)%Z]; right; eexists e0, _, ds; (split; [auto|]);
      (split; [auto|]); (split; [auto|]); (split; [reflexivity|]); auto. }
  destruct Ee as (x & Ee). destruct Hs as [->| ->]; [exists false|exists true]; eexists; exists i, f', e, x; repeat (split; [solve [reflexivity|auto]|]); reflexivity.
Qed.

Lemma real_number b d : real_value b d -> number b.
Proof.
  intros (neg & i & f & e & x & -> & Hi & Hf & He & _). exists (if neg then [45] else []), i, (match f with [] => [] | _ => 46 :: f end), e.
  split; [destruct neg; auto|]. split; auto. split; [|split; [|reflexivity]].
  - destruct f as [|f0 f]; [now left|]. right. exists (f0 :: f). split; [discriminate|]. auto.
  - destruct He as [[-> _]|(e0 & sg & ds & H0 & Hn & Hd & -> & Hx)]; [now left|]. right. exists e0, sg, ds. split; [tauto|]. split; [tauto|]. auto.
Qed.
Lemma number_real b : number b -> exists d, real_value b d.
Proof. intro H. destruct (number_value b H) as (neg & q & K). destruct (dec_real b neg q K) as (d & R & _). eauto. Qed.

(** ** The API *)
Section WithVol.
Context {VV : vols}.
Section On.
Variables (s : st) (F : dom) (v a : addr) (A : N) (j : json) (f : fnode).
Hypothesis I : inv s F.
Hypothesis H : on s F v a A.
Hypothesis R : reads F a j.
Hypothesis Fa : F a = Some f.
Lemma getDouble_text_wp b t : fvalue f = VNum b -> usedA s A + 8 <= two30 -> lenN b <= 128 -> t <> [] ->
  (forall n p, snodes s a = Some n -> nVal n = At p -> text_at s p = t) ->
  wp (zj_GetDouble_text v) s (fun r s' => r = Some t /\ ext none none (at_ A 8) s s').
Proof.
  intros Ev Hu Hl Ht Hz. pose proof H as (_ & [Al NA] & _). unfold zj_GetDouble_text.
  eapply with_type_node; eauto; [rewrite Ev; intro E; now elim E|].
  intros n _ Hn Rp. pose proof (r_val _ _ _ Rp) as Rv. rewrite Ev in Rv. destruct Rv as (_ & El & p & Ep & Sf). cbn [vA].
  eapply wp_seq; [eapply (alloc_step none none A 0 8 s s); auto; [apply ext_start; apply I|lia]|].
  intros q s1 [X P]. apply wp_bind, (wp_rLen _ _ _ _ El). rewrite Ep. apply wp_bind. unfold zj_strToDouble_text.
  eapply wp_seq; [apply local_copy_wp|]; [|lia|].
  { intros i x Ex. rewrite (ap_bytes _ _ _ _ _ P). apply Sf. auto. }
  intros t0 s' [_ ->]. apply wp_bind, wp_deref. apply wp_readable. apply wp_ret. split; auto.
  specialize (Hz n p Hn Ep). destruct t as [|x r]; [congruence|].
  erewrite text_at_ext; eauto. apply (ap_bytes _ _ _ _ _ P).
Qed.
Lemma numfast_at b n p : fvalue f = VNum b -> snodes s a = Some n -> nVal n = At p -> zj_GetNumFast v s = Ok (Some (At p, lenN b), s).
Proof.
  intros Ev Hn Ep. destruct (i_rep _ _ I a f Fa) as (n' & Hn' & Rp); [auto|]. assert (n' = n) by congruence. subst n'.
  pose proof (r_val _ _ _ Rp) as Rv. rewrite Ev in Rv. destruct Rv as (T & El & q & Eq & _).
  destruct H as (Hv & _). unfold zj_GetNumFast, with_type, bind, getVal, getNode, get, rType, rLen, deref, is_null, wopt, ret.
  rewrite Hv. cbn [vN vA]. rewrite Hn, T. cbn. rewrite El. cbn. now rewrite Ep.
Qed.
Lemma num_value b : j = JNum b -> fvalue f = VNum b.
Proof. intro E. exact (num_here s F v a A j f H R Fa b E). Qed.
Lemma getDouble_at b t d : j = JNum b -> lenN b <= 128 -> room s A 8 -> t <> [] -> atof t = Ok d ->
  (forall p n, zj_GetNumFast v s = Ok (Some (At p, n), s) -> text_at s p = t) ->
  exists s', zj_GetDouble v s = Ok (Some d, s') /\ untouched s F s'.
Proof.
  intros Ej Hl Hr Ht Hd Hz. pose proof (num_value b Ej) as Ev.
  destruct (getDouble_text_wp b t Ev) as (r & s' & E & -> & X); auto.
  { intros n p Hn Ep. eapply Hz. eapply numfast_at; eauto. }
  exists s'. split; [|eapply ext_untouched; eauto]. unfold zj_GetDouble, bind. rewrite E. unfold lift. rewrite Hd. reflexivity.
Qed.
Lemma getDouble_real b d c : j = JNum b -> real_value b d -> lenN b <= 128 -> room s A 8 -> ends c ->
  (forall p n, zj_GetNumFast v s = Ok (Some (At p, n), s) -> exists r, text_at s p = b ++ c :: r) ->
  wp (zj_GetDouble v) s (fun o s' => o = Some d /\ ext none none (at_ A 8) s s').
Proof.
  intros Ej Hd Hl Hr Hc Hz. pose proof (num_value b Ej) as Ev.
  destruct (i_rep _ _ I a f Fa) as (n & Hn & Rp); [auto|]. pose proof (r_val _ _ _ Rp) as Rv. rewrite Ev in Rv. destruct Rv as (_ & _ & p & Ep & _).
  destruct (Hz p (lenN b) (numfast_at b n p Ev Hn Ep)) as (r & Et).
  destruct (getDouble_text_wp b (b ++ c :: r) Ev) as (o & s' & E & -> & X); auto.
  { now destruct b. }
  { intros n' p' Hn' Ep'. replace p' with p by congruence. exact Et. }
  exists (Some d), s'. split; auto. unfold zj_GetDouble, bind. rewrite E. unfold lift. now rewrite (atof_real b d c r Hd Hc).
Qed.
Lemma getDouble_exact b neg q c : j = JNum b -> dec_value b neg q -> lenN b <= 128 -> room s A 8 -> ends c ->
  (forall p n, zj_GetNumFast v s = Ok (Some (At p, n), s) -> exists r, text_at s p = b ++ c :: r) ->
  exists d s', zj_GetDouble v s = Ok (Some d, s') /\ rounds neg q d /\ untouched s F s'.
Proof.
  intros Ej Hq Hl Hr Hc Hz. pose proof (num_value b Ej) as Ev.
  destruct (i_rep _ _ I a f Fa) as (n & Hn & Rp); [auto|]. pose proof (r_val _ _ _ Rp) as Rv. rewrite Ev in Rv. destruct Rv as (_ & _ & p & Ep & _).
  destruct (Hz p (lenN b) (numfast_at b n p Ev Hn Ep)) as (r & Et).
  destruct (atof_number b neg q c r Hq Hc) as (d & Ed & Rd).
  destruct (getDouble_at b (b ++ c :: r) d Ej Hl Hr) as (s' & E & U); auto.
  - now destruct b.
  - intros p' n' E. rewrite (numfast_at b n p Ev Hn Ep) in E. injection E as <- <-. exact Et.
  - eauto.
Qed.
End On.

Section Set_.
Variables (s : st) (F : dom) (v : addr) (w : word) (A : N).
Hypothesis I : inv s F.
Hypothesis H : handle s F v w A.
(** Setting a finite double stores a JSON number, and reading it gives the same
    double, sign of zero included. *)
Lemma setDouble_stores d : is_double d -> finite d -> room s A 104 ->
  exists s1 F1 t, zj_SetDouble v d s = Ok (true, s1) /\ assigned s F v w (JNum t) s1 F1 /\ number t.
Proof.
  intros D Fi Hr. unfold room in Hr. pose proof (g17_len d D) as L.
  destruct (set_printed_points s F v w A 32 32 (g17 d) I H) as (r & s1 & E & -> & F1 & a & n & p & P & _); [unfold lenN; lia|lia|lia|].
  exists s1, F1, (g17 d). split; [exact E|]. split; [eapply parsed_assigned; eauto|now apply g17_number].
Qed.
Lemma setDouble_back d : is_double d -> finite d -> room s A 112 ->
  exists s1 F1 t, zj_SetDouble v d s = Ok (true, s1) /\ assigned s F v w (JNum t) s1 F1 /\ number t /\
    exists s2, zj_GetDouble v s1 = Ok (Some d, s2) /\ untouched s1 F1 s2.
Proof.
  intros D Fi Hr. pose proof Hr as Hr'. unfold room in Hr'. pose proof (g17_len d D) as L.
  destruct (set_printed_points s F v w A 32 32 (g17 d) I H) as (r & s1 & E & -> & F1 & a & n & p & P & Hn & Ep & Hp); [unfold lenN; lia|lia|lia|].
  exists s1, F1, (g17 d). split; [exact E|]. split; [eapply parsed_assigned; eauto|]. split; [now apply g17_number|].
  destruct (parsed_here s F v w A H _ _ _ _ _ P) as (I' & O' & R' & f & Fa).
  destruct (holds_text s1 p _ (i_wf _ _ I') (proj1 Hp)) as (r & Et). rewrite <- app_assoc in Et. cbn [app] in Et.
  assert (Hc : ends 0) by (unfold ends, is_digit; lia).
  eapply (getDouble_at s1 F1 v a A (JNum (g17 d)) f I' O' R' Fa (g17 d) (g17 d ++ 0 :: r)); auto.
  - unfold lenN. lia.
  - eapply (parsed_room s F v w A); eauto.
  - now destruct (g17 d).
  - now apply atof_g17.
  - intros q m Eq. rewrite (numfast_at s1 F1 v a A f I' O' Fa (g17 d) n p) in Eq; auto; [congruence|].
    exact (num_here s1 F1 v a A _ f O' R' Fa _ eq_refl).
Qed.
(** Infinities and NaN: the call answers true all the same. *)
Lemma setDouble_accepts d : is_double d -> room s A 104 ->
  exists s1 F1 t, zj_SetDouble v d s = Ok (true, s1) /\ assigned s F v w (JNum t) s1 F1.
Proof.
  intros D Hr. unfold room in Hr. pose proof (g17_len d D) as L.
  destruct (set_printed_points s F v w A 32 32 (g17 d) I H) as (r & s1 & E & -> & F1 & a & n & p & P & _); [unfold lenN; lia|lia|lia|].
  exists s1, F1, (g17 d). split; [exact E|]. eapply parsed_assigned; eauto.
Qed.
End Set_.
End WithVol.
(** No infinity or NaN is a JSON number. *)
Lemma g17_not_number d : ~ finite d -> ~ number (g17 d).
Proof.
  intros Nf (sg & i & f & e & Hs & Hi & _ & _ & E). destruct (int_part_head i Hi) as (c & l & -> & Hc & _). unfold is_digit in Hc.
  destruct d as [neg m x|neg|neg]; [now elim Nf| |]; destruct Hs as [->| ->]; destruct neg; vm_compute in E; injection E as E0; try lia; subst; vm_compute in Hc; destruct Hc; congruence.
Qed.
Lemma setDouble_exactly {VV : vols} s F v w A : inv s F -> handle s F v w A -> forall d, is_double d -> room s A 104 ->
  exists s1 F1 t, zj_SetDouble v d s = Ok (true, s1) /\ assigned s F v w (JNum t) s1 F1 /\ (number t <-> finite d).
Proof.
  intros I H d D Hr. unfold room in Hr. pose proof (g17_len d D) as L.
  destruct (set_printed_points s F v w A 32 32 (g17 d) I H) as (r & s1 & E & -> & F1 & a & n & p & P & _); [unfold lenN; lia|lia|lia|].
  exists s1, F1, (g17 d). split; [exact E|]. split; [eapply parsed_assigned; eauto|]. split; [|now apply g17_number].
  intro K. destruct d as [neg m e|neg|neg]; [exact Logic.I| |]; exfalso; refine (g17_not_number _ _ K); intros [].
Qed.
