(** What GetInt, GetLong and GetLongLong answer, for every number and whatever follows
    its text in memory. *)
From Verif Require Import Base Spec Lex LexProofs Alloc AllocProofs Mem MemProofs Api PureParse SpecProofs
  Dom Effect Steps ParseTop GetProofs Vocab ReadFacts.
From Coq Require Import ZifyN.

(** The integer a text starts with: a sign, digits, and something that ends them. *)
Definition starts_int (t : bytes) (z : Z) : Prop :=
  exists sg ds c r, (sg = [] \/ sg = [45]) /\ ds <> [] /\ Forall is_digit ds /\ ~ is_digit c /\ t = sg ++ ds ++ c :: r /\
    z = (if sg then dec_value ds else - dec_value ds)%Z.

Lemma digits_split (t : bytes) : exists ds r, t = ds ++ r /\ Forall is_digit ds /\ match r with [] => True | c :: _ => ~ is_digit c end.
Proof.
  induction t as [|c t (ds & r & -> & Hd & Hr)]; [exists [], []; auto|]. destruct (digitb c) eqn:E.
  - apply digitb_spec in E. exists (c :: ds), r. auto.
  - exists [], (c :: ds ++ r). split; auto. split; auto. intro K. apply digitb_spec in K. congruence.
Qed.
Lemma digits_val_end ds : Forall is_digit ds -> forall acc, digits_val acc ds = Err EOob.
Proof. induction 1 as [|d ds Hd _ IH]; intro acc; cbn [digits_val]; [reflexivity|]. apply digitb_spec in Hd. rewrite Hd. auto. Qed.
(** [digit_run sg t]: the text after the sign starts with a digit. *)
Lemma ato_run lo hi sg d t : (sg = [] \/ sg = [45]) -> is_digit d ->
  ato lo hi (sg ++ d :: t) = rbind (digits_val 0 (d :: t)) (fun x => let v := (if sg then x else - x)%Z in if ((lo <=? v) && (v <=? hi))%Z then Ok v else Err ERange).
Proof.
  intros [->| ->] Hd; unfold ato.
  - cbn [app skip_space]. unfold is_digit in Hd. replace (isspace d) with false by (symmetry; unfold isspace; bools; lia).
    replace (d =? 45) with false by (symmetry; bools; lia). replace (d =? 43) with false by (symmetry; bools; lia). reflexivity.
  - cbn [app skip_space]. change (isspace 45) with false. cbv iota. change (45 =? 45) with true. cbv iota. destruct (digits_val 0 (d :: t)); reflexivity.
Qed.
Lemma ato_exactly lo hi sg d t z : (sg = [] \/ sg = [45]) -> is_digit d ->
  (ato lo hi (sg ++ d :: t) = Ok z <-> starts_int (sg ++ d :: t) z /\ (lo <= z <= hi)%Z).
Proof.
  intros Hs Hd. rewrite ato_run by auto. destruct (digits_split (d :: t)) as (ds & r & E & Fd & Hr).
  assert (Nd : ds <> []). { intros ->. cbn [app] in E. subst r. contradiction. }
  destruct r as [|c r].
  - rewrite app_nil_r in E. rewrite E, digits_val_end by auto. cbn [rbind]. split; [discriminate|]. intros [(sg' & ds' & c & r & Hs' & Nd' & Fd' & Hc & Et & _) _]. exfalso.
    assert (K : exists m, ds = m ++ c :: r).
    { destruct Hs as [->| ->], Hs' as [->| ->]; cbn [app] in Et; try (injection Et as Et); eauto.
      - rewrite Et in Fd. inversion Fd as [|? ? K _]. unfold is_digit in K. lia.
      - destruct ds' as [|d' ds']; [now elim Nd'|]. injection Et as K _. subst d'. inversion Fd' as [|? ? K _]. unfold is_digit in K. lia. }
    destruct K as (m & ->). apply Forall_app in Fd as [_ K]. inversion K. contradiction.
  - rewrite E, digits_val_app by auto. cbn [rbind]. cbv zeta. fold (dec_value ds).
    assert (U : forall z', starts_int (sg ++ ds ++ c :: r) z' <-> z' = (if sg then dec_value ds else - dec_value ds)%Z).
    { intro z'. split.
      - intros (sg' & ds' & c' & r' & Hs' & Nd' & Fd' & Hc' & Et & ->).
        assert (Eq : sg' = sg).
        { destruct Hs as [->| ->], Hs' as [->| ->]; auto; exfalso; [destruct ds as [|x ds]; [now elim Nd|]|destruct ds' as [|x ds']; [now elim Nd'|]]; injection Et as K _; subst x;
            [inversion Fd as [|? ? K _]|inversion Fd' as [|? ? K _]]; unfold is_digit in K; lia. }
        subst sg'. apply app_inv_head in Et. enough (Q : ds = ds') by (now rewrite Q). clear - Fd Fd' Hc' Hr Et. revert ds' Fd' Et. induction Fd as [|x ds Hx _ IH]; intros [|y ds'] Fd' Et; auto; cbn [app] in Et; injection Et as K Et.
        + subst c. inversion Fd'. contradiction.
        + subst x. contradiction.
        + subst y. inversion Fd'; subst. f_equal. now apply IH.
      - intros ->. exists sg, ds, c, r. auto 8. }
    rewrite U. destruct ((lo <=? _)%Z && (_ <=? hi)%Z) eqn:B.
    + apply andb_prop in B as [B1 B2]. apply Z.leb_le in B1, B2. split; [intro K; injection K as <-; auto|intros [-> _]; auto].
    + split; [discriminate|]. intros [-> [B1 B2]]. apply Z.leb_le in B1, B2. rewrite B1, B2 in B. discriminate.
Qed.
Lemma number_starts b : number b -> exists sg d t, (sg = [] \/ sg = [45]) /\ is_digit d /\ b = sg ++ d :: t.
Proof.
  intros (sg & i & f & e & Hs & Hi & _ & _ & ->). destruct (int_part_digits i Hi) as (_ & d & ds & -> & Hd). exists sg, d, (ds ++ f ++ e). auto.
Qed.
Lemma ato_number_exactly lo hi b r z : number b -> (ato lo hi (b ++ r) = Ok z <-> starts_int (b ++ r) z /\ (lo <= z <= hi)%Z).
Proof. intro H. destruct (number_starts b H) as (sg & d & t & Hs & Hd & ->). rewrite <- app_assoc. cbn [app]. now apply ato_exactly. Qed.

(** ** When is that the integer part of the number itself? *)
(** [follows b r]: the text [r] after the number [b] does not change its integer part:
    the number has a fraction or an exponent, or [r] begins with something that is no
    digit, or the number is 0 and [r] begins with zeros. *)
Definition follows (b r : bytes) : Prop :=
  (exists c, In c b /\ c <> 45 /\ ~ is_digit c) \/
  exists ds c r', r = ds ++ c :: r' /\ Forall is_digit ds /\ ~ is_digit c /\ (ds = [] \/ (b = [48] \/ b = [45; 48]) /\ Forall (eq 48) ds).
Lemma dec_value_from ds : forall x, fold_left (fun x c => (10 * x + Z.of_N (c - 48))%Z) ds x = (x * 10 ^ Z.of_nat (length ds) + dec_value ds)%Z.
Proof.
  unfold dec_value. induction ds as [|c ds IH]; intro x; cbn [fold_left length]; [cbn; lia|]. rewrite IH, (IH (10 * 0 + _)%Z). rewrite Nat2Z.inj_succ, Z.pow_succ_r by lia. lia.
Qed.
Lemma dec_value_app a b : dec_value (a ++ b) = (dec_value a * 10 ^ Z.of_nat (length b) + dec_value b)%Z.
Proof. unfold dec_value at 1. rewrite fold_left_app. apply dec_value_from. Qed.
Lemma dec_value_nonneg ds : (0 <= dec_value ds)%Z.
Proof.
  induction ds as [|c ds IH]; [cbn; lia|]. change (c :: ds) with ([c] ++ ds). rewrite dec_value_app. unfold dec_value at 1. cbn [fold_left].
  assert (0 < 10 ^ Z.of_nat (length ds))%Z by (apply Z.pow_pos_nonneg; lia). nia.
Qed.
Lemma dec_value_zero ds : Forall is_digit ds -> dec_value ds = 0%Z -> Forall (eq 48) ds.
Proof.
  induction 1 as [|c ds Hc _ IH]; intro E; [constructor|]. change (c :: ds) with ([c] ++ ds) in E. rewrite dec_value_app in E. pose proof (dec_value_nonneg ds) as P.
  assert (0 < 10 ^ Z.of_nat (length ds))%Z by (apply Z.pow_pos_nonneg; lia). unfold dec_value at 1 in E. cbn [fold_left] in E. unfold is_digit in Hc.
  assert (Z.of_N (c - 48) = 0)%Z by nia. constructor; [lia|]. apply IH. nia.
Qed.
Lemma dec_value_zeros ds : Forall (eq 48) ds -> dec_value ds = 0%Z.
Proof. induction 1 as [|c ds <- _ IH]; [reflexivity|]. change (48 :: ds) with ([48] ++ ds). rewrite dec_value_app, IH. cbn. lia. Qed.
Lemma int_part_value i : int_part i -> i = [48] \/ (1 <= dec_value i)%Z.
Proof.
  intros [->|(d & ds & Hd & _ & ->)]; auto. right. change (d :: ds) with ([d] ++ ds). rewrite dec_value_app. pose proof (dec_value_nonneg ds).
  assert (0 < 10 ^ Z.of_nat (length ds))%Z by (apply Z.pow_pos_nonneg; lia). unfold dec_value at 1. cbn [fold_left]. nia.
Qed.
Lemma same_value i ds : int_part i -> Forall is_digit ds -> (dec_value (i ++ ds) = dec_value i <-> ds = [] \/ i = [48] /\ Forall (eq 48) ds).
Proof.
  intros Hi Hd. rewrite dec_value_app. pose proof (dec_value_nonneg ds) as P. split.
  - intro E. destruct ds as [|c ds]; auto. right. destruct (int_part_value i Hi) as [->|V].
    + split; [reflexivity|]. apply dec_value_zero; [assumption|]. change (dec_value [48]) with 0%Z in E. lia.
    + exfalso. cbn [length] in E. rewrite Nat2Z.inj_succ, Z.pow_succ_r in E by lia. assert (0 < 10 ^ Z.of_nat (length ds))%Z by (apply Z.pow_pos_nonneg; lia). nia.
  - intros [->|[-> Z0]]; [cbn [length]; change (dec_value []) with 0%Z; cbn; lia|]. rewrite (dec_value_zeros ds Z0). reflexivity.
Qed.
Lemma tail_nodigit f e : frac_part f -> exp_part e -> f ++ e <> [] -> exists c l, f ++ e = c :: l /\ ~ is_digit c /\ c <> 45.
Proof.
  intros [->|(ds & _ & _ & ->)] He Hn.
  - destruct He as [->|(e0 & sg & ds & H0 & _ & _ & _ & ->)]; [now elim Hn|]. exists e0, (sg ++ ds). split; auto. unfold is_digit. lia.
  - exists 46, (ds ++ e). split; auto. unfold is_digit. lia.
Qed.
Lemma starts_number b r z : int_value b z -> (starts_int (b ++ r) z <-> follows b r).
Proof.
  intros (sg & i & f & e & Hs & Hi & Hf & He & Eb & Ez). destruct (int_part_digits i Hi) as [Fi (d & di & Ei & Hd)].
  assert (Ni : i <> []) by (rewrite Ei; discriminate).
  destruct (f ++ e) as [|x l] eqn:Et.
  - rewrite app_nil_r in Eb. assert (Fol : follows b r <-> exists ds c r', r = ds ++ c :: r' /\ Forall is_digit ds /\ ~ is_digit c /\ (ds = [] \/ i = [48] /\ Forall (eq 48) ds)).
    { unfold follows. split.
      - intros [(c & Hc & N45 & Nd)|(ds & c & r' & Er & Fd & Hc & K)].
        + exfalso. rewrite Eb in Hc. apply in_app_or in Hc as [Hc|Hc]; [destruct Hs as [->| ->]; [easy|destruct Hc as [<-|[]]; now elim N45]|].
          rewrite Forall_forall in Fi. now apply Nd, Fi.
        + exists ds, c, r'. split; auto. split; auto. split; auto. destruct K as [K|[K Z0]]; auto. right. split; auto.
          destruct Hs as [->| ->]; cbn [app] in Eb; destruct K as [K|K]; rewrite K in Eb; auto.
          * rewrite <- Eb in Fi. inversion Fi as [|? ? Q _]. unfold is_digit in Q. lia.
          * discriminate.
          * now injection Eb.
      - intros (ds & c & r' & Er & Fd & Hc & K). right. exists ds, c, r'. split; auto. split; auto. split; auto. destruct K as [K|[K Z0]]; auto. right. split; auto.
        rewrite K in Eb. destruct Hs as [->| ->]; cbn [app] in Eb; auto. }
    rewrite Fol. clear Fol. destruct (digits_split r) as (ds & r' & Er & Fd & Hr).
    assert (U : forall ds' c' q, Forall is_digit ds' -> ~ is_digit c' -> r = ds' ++ c' :: q -> ds' = ds /\ c' :: q = r').
    { intros ds' c' q Fd' Hc' Eq. rewrite Er in Eq. clear Er. revert ds' Fd' Eq. induction Fd as [|y ds Hy _ IH]; intros [|y' ds'] Fd' Eq; cbn [app] in Eq; auto.
      - subst r'. inversion Fd'. contradiction.
      - injection Eq as -> _. contradiction.
      - injection Eq as -> Eq. inversion Fd'; subst. destruct (IH ds') as [-> ->]; auto. }
    destruct r' as [|c r'].
    + split; [|intros (ds' & c & q & E' & Fd' & Hc & _); destruct (U ds' c q Fd' Hc E'); discriminate].
      intros (sg' & ds' & c & q & Hs' & Nd' & Fd' & Hc & Eq & _). exfalso. rewrite Eb, Er, app_nil_r in Eq.
      assert (K : In c (sg ++ i ++ ds)) by (rewrite app_assoc, Eq; apply in_or_app; right; apply in_or_app; right; now left).
      apply in_app_or in K as [K|K].
      * destruct Hs as [->| ->]; [easy|]. destruct K as [<-|[]]. cbn [app] in Eq. destruct Hs' as [->| ->]; cbn [app] in Eq.
        -- destruct ds' as [|y ds']; [now elim Nd'|]. injection Eq as <- _. inversion Fd' as [|? ? Q _]. unfold is_digit in Q. lia.
        -- injection Eq as Eq. assert (K : In 45 (i ++ ds)) by (rewrite Eq; apply in_or_app; right; now left). apply in_app_or in K as [K|K]; [rewrite Forall_forall in Fi; now apply Hc, Fi|rewrite Forall_forall in Fd; now apply Hc, Fd].
      * apply in_app_or in K as [K|K]; [rewrite Forall_forall in Fi; now apply Hc, Fi|rewrite Forall_forall in Fd; now apply Hc, Fd].
    + assert (St : starts_int (b ++ r) (if sg then dec_value (i ++ ds) else - dec_value (i ++ ds))%Z).
      { exists sg, (i ++ ds), c, r'. split; auto. split; [rewrite Ei; discriminate|]. split; [now apply Forall_app|]. split; auto. split; auto. rewrite Eb, Er, <- !app_assoc. reflexivity. }
      assert (Nb : number b) by (rewrite Eb, <- (app_nil_r i), <- Et; exists sg, i, f, e; auto 6).
      assert (Un : forall z', starts_int (b ++ r) z' <-> z' = (if sg then dec_value (i ++ ds) else - dec_value (i ++ ds))%Z).
      { intro z'. split; [|now intros ->]. intro Q.
        pose proof (ato_number_exactly (Z.min z' (if sg then dec_value (i ++ ds) else - dec_value (i ++ ds))) (Z.max z' (if sg then dec_value (i ++ ds) else - dec_value (i ++ ds))) b r) as Z1.
        pose proof (proj2 (Z1 z' Nb) ltac:(split; [exact Q|lia])) as Q1. pose proof (proj2 (Z1 _ Nb) ltac:(split; [exact St|lia])) as Q2. congruence. }
      rewrite Un, Ez. assert (Sv : (if sg then dec_value i else - dec_value i)%Z = (if sg then dec_value (i ++ ds) else - dec_value (i ++ ds))%Z <-> dec_value (i ++ ds) = dec_value i) by (destruct sg; lia).
      rewrite Sv, same_value by auto. split.
      * intro K. exists ds, c, r'. auto.
      * intros (ds' & c' & q & E' & Fd' & Hc & K). destruct (U ds' c' q Fd' Hc E') as [-> _]. exact K.
  - destruct (tail_nodigit f e Hf He) as (x' & l' & Ex & Hx & Nx); [rewrite Et; discriminate|]. rewrite Et in Ex. injection Ex as <- <-. split.
    + intros _. left. exists x. split; [rewrite Eb; apply in_or_app; right; apply in_or_app; right; now left|auto].
    + intros _. exists sg, i, x, (l ++ r). split; auto. split; auto. split; auto. split; auto. split; auto. rewrite Eb, <- !app_assoc. reflexivity.
Qed.

Lemma starts_int_unique b r z z' : number b -> starts_int (b ++ r) z -> starts_int (b ++ r) z' -> z = z'.
Proof.
  intros Nb Q Q'. pose proof (ato_number_exactly (Z.min z z') (Z.max z z') b r) as K.
  pose proof (proj2 (K z Nb) ltac:(split; [exact Q|lia])) as Q1. pose proof (proj2 (K z' Nb) ltac:(split; [exact Q'|lia])) as Q2. congruence.
Qed.
Lemma number_int b : number b -> exists z, int_value b z.
Proof. intros (sg & i & f & e & Hs & Hi & Hf & He & ->). eexists. exists sg, i, f, e. eauto 8. Qed.
Lemma starts_zero b r z : number b -> (starts_int (b ++ 0 :: r) z <-> int_value b z).
Proof.
  intro Nb. destruct (number_int b Nb) as (z0 & H0). assert (St : forall z, int_value b z -> starts_int (b ++ 0 :: r) z).
  { intros z1 H1. apply (starts_number b _ z1 H1). right. exists [], 0, r. split; auto. split; [constructor|]. split; [unfold is_digit; lia|auto]. }
  split; auto. intro Q. now rewrite (starts_int_unique b _ z z0 Nb Q (St z0 H0)).
Qed.
Lemma long_int i : int_part i -> i = [48] \/ (10 ^ Z.of_nat (length i - 1) <= dec_value i)%Z.
Proof.
  intros [->|(d & ds & Hd & _ & ->)]; auto. right. cbn [length]. replace (S (length ds) - 1)%nat with (length ds) by lia.
  change (d :: ds) with ([d] ++ ds). rewrite dec_value_app. pose proof (dec_value_nonneg ds).
  assert (0 < 10 ^ Z.of_nat (length ds))%Z by (apply Z.pow_pos_nonneg; lia). unfold dec_value at 1. cbn [fold_left]. nia.
Qed.
(** A number of 128 bytes is out of range or has a fraction or an exponent. *)
Lemma starts_full b z : number b -> length b = 128%nat -> (starts_int (b ++ []) z /\ (int_min <= z <= int_max)%Z <-> int_value b z /\ (int_min <= z <= int_max)%Z).
Proof.
  intros Nb Lb. assert (K : forall z, int_value b z -> (int_min <= z <= int_max)%Z -> follows b []).
  { intros z1 (sg & i & f & e & Hs & Hi & Hf & He & Eb & Ez) Rz. left. destruct (f ++ e) as [|x l] eqn:Et.
    - exfalso. rewrite app_nil_r in Eb. assert (Li : (127 <= length i)%nat) by (rewrite Eb, app_length in Lb; destruct Hs as [->| ->]; cbn [length] in Lb; lia).
      destruct (long_int i Hi) as [->|V]; [cbn [length] in Li; lia|].
      assert (10 ^ 100 <= 10 ^ Z.of_nat (length i - 1))%Z by (apply Z.pow_le_mono_r; lia). assert (2147483648 < 10 ^ 100)%Z by reflexivity. unfold int_min, int_max in Rz. destruct sg; lia.
    - destruct (tail_nodigit f e Hf He) as (x' & l' & Ex & Hx & Nx); [rewrite Et; discriminate|]. rewrite Et in Ex. injection Ex as <- <-.
      exists x. split; [rewrite Eb; apply in_or_app; right; apply in_or_app; right; now left|auto]. }
  split; intros [Q Rz]; split; auto.
  - destruct (number_int b Nb) as (z0 & H0). pose proof H0 as (sg & i & f & e & Hs & Hi & Hf & He & Eb & Ez).
    destruct (f ++ e) as [|x l] eqn:Et.
    + exfalso. rewrite app_nil_r in Eb. rewrite app_nil_r in Q. destruct Q as (sg' & ds' & c & q & Hs' & Nd' & Fd' & Hc & Eq & _). rewrite Eb in Eq.
      destruct (int_part_digits i Hi) as [Fi _]. rewrite Forall_forall in Fi.
      assert (In c i).
      { destruct Hs as [->| ->], Hs' as [->| ->]; cbn [app] in Eq; try (injection Eq as Eq).
        - rewrite Eq. apply in_or_app. right. now left.
        - rewrite Eq. right. apply in_or_app. right. now left.
        - exfalso. destruct ds' as [|y ds']; [now elim Nd'|]. injection Eq as K1 _. subst y. inversion Fd' as [|? ? K1 _]. unfold is_digit in K1. lia.
        - rewrite Eq. apply in_or_app. right. now left. }
      now apply Hc, Fi.
    + destruct (tail_nodigit f e Hf He) as (x' & l' & Ex & Hx & Nx); [rewrite Et; discriminate|]. rewrite Et in Ex. injection Ex as <- <-.
      assert (Fo : follows b []). { left. exists x. split; [rewrite Eb; apply in_or_app; right; apply in_or_app; right; now left|auto]. }
      now rewrite (starts_int_unique b [] z z0 Nb Q (proj2 (starts_number b [] z0 H0) Fo)).
  - apply (starts_number b [] z Q). eapply K; eauto.
Qed.

(** ** The calls *)
Section WithVol.
Context {VV : vols}.
Lemma number_call {X} (conv : word -> N -> M X) k s F v a A f b : inv s F -> on s F v a A -> F a = Some f -> fvalue f = VNum b -> b <> [] -> room s A k ->
  exists p s1, zj_GetNumFast v s = Ok (Some (At p, lenN b), s) /\ holds s1 p b /\ text_at s1 p = text_at s p /\ (exists r, text_at s p = b ++ r) /\ untouched s F s1 /\
    with_type v TNumber (fun x _ n => zj_allocatorAlloc (vA x) k ;;; l <- rLen n ;; z <- conv (nVal n) l ;; ret (Some z)) s =
      match conv (At p) (lenN b) s1 with Ok (z, s2) => Ok (Some z, s2) | Err e => Err e end.
Proof.
  intros I H Fa Ev Nb Hr. destruct (i_rep _ _ I a f Fa) as (n & Hn & R); [auto|]. pose proof H as (Hv & [Al NA] & _).
  pose proof (r_val _ _ _ R) as Rv. rewrite Ev in Rv. destruct Rv as (T & El & p & Ep & Sf).
  destruct (alloc_step none none A 0 k s s) as (q & s1 & E1 & X1 & P1); auto; [apply ext_start, I|unfold room in Hr; lia|].
  assert (Hp : holds s p b) by (intros i x Ex; apply Sf; auto).
  destruct (holds_text s p b (i_wf _ _ I) Hp) as (r & Er). exists p, s1. split; [|split; [|split; [|split; [|split]]]].
  - unfold zj_GetNumFast, with_type, bind, getVal, getNode, get, rType, rLen, deref, is_null, ret. rewrite Hv. cbn [vN vA]. rewrite Hn, T. cbn. rewrite El. cbn. now rewrite Ep.
  - intros i x Ex. rewrite (ap_bytes _ _ _ _ _ P1). auto.
  - rewrite Er. destruct b as [|x b]; [now elim Nb|]. cbn [app] in *. eapply text_at_ext; eauto. apply (ap_bytes _ _ _ _ _ P1).
  - eauto.
  - eapply ext_untouched; eauto.
  - unfold with_type. unfold bind at 1, getVal, get. rewrite Hv. cbn [vN]. unfold bind at 1, is_null, ret. cbn. unfold bind at 1, deref, ret.
    unfold bind at 1, getNode, get. rewrite Hn. unfold bind at 1, rType, lift. rewrite T. cbn [jtype_eqb]. unfold bind at 1. rewrite E1.
    unfold bind at 1, rLen, lift. rewrite El, Ep. unfold bind. destruct (conv (At p) (lenN b) s1) as [[z s2]|e]; reflexivity.
Qed.
Lemma local_copy_eq s p b : holds s p b -> local_copy (At p) (lenN b) s = if 128 <? lenN b then Err EOverflow else Ok (b ++ repeat 0 (128 - length b), s).
Proof.
  intro Hp. destruct (wp_load p (lenN b) b s (fun r s' => r = b /\ s' = s) Hp eq_refl (conj eq_refl eq_refl)) as (x & s' & E & -> & ->).
  unfold local_copy, load_w, bind, deref, ret. rewrite E. destruct (128 <? lenN b); reflexivity.
Qed.

Variables (s : st) (F : dom) (v a : addr) (A : N) (f : fnode) (b : bytes).
Hypothesis I : inv s F.
Hypothesis H : on s F v a A.
Hypothesis Rd : reads F a (JNum b).
Hypothesis Fa : F a = Some f.
Hypothesis Nb : number b.

Lemma getInt_exactly z : room s A 4 ->
  ((exists s', zj_GetInt v s = Ok (Some z, s')) <-> lenN b <= 128 /\ int_value b z /\ (int_min <= z <= int_max)%Z).
Proof.
  intro Hr. assert (Ev : fvalue f = VNum b) by (eapply num_here; eauto).
  assert (N0 : b <> []) by (destruct (number_starts b Nb) as (sg & d & t & _ & _ & ->); destruct sg; discriminate).
  destruct (number_call zj_strToInt 4 s F v a A f b I H Fa Ev N0 Hr) as (p & s1 & _ & Hp & _ & _ & _ & E).
  unfold zj_GetInt. rewrite E. unfold zj_strToInt, bind. rewrite (local_copy_eq s1 p b Hp).
  destruct (N.ltb_spec 128 (lenN b)) as [L|L]; [split; [intros (s' & K); discriminate|lia]|].
  unfold lift. assert (K : ato int_min int_max (b ++ repeat 0 (128 - length b)) = Ok z <-> int_value b z /\ (int_min <= z <= int_max)%Z).
  { rewrite ato_number_exactly by auto. unfold lenN in L. destruct (128 - length b)%nat as [|m] eqn:Em; cbn [repeat].
    - apply starts_full; auto. lia.
    - now rewrite starts_zero. }
  rewrite <- K. destruct (ato int_min int_max _) as [x|e].
  - split; [intros (s' & K'); injection K' as ->; auto|intros (_ & K'); injection K' as ->; eauto].
  - split; [intros (s' & K'); discriminate|intros (_ & K'); discriminate].
Qed.
Lemma getLong_place : room s A 8 -> exists p r, zj_GetNumFast v s = Ok (Some (At p, lenN b), s) /\ text_at s p = b ++ r /\ forall z, (exists s', zj_GetLong v s = Ok (Some z, s')) <-> lenN b <= 128 /\ starts_int (b ++ r) z /\ (long_min <= z <= long_max)%Z.
Proof.
  intro Hr. assert (Ev : fvalue f = VNum b) by (eapply num_here; eauto).
  assert (N0 : b <> []) by (destruct (number_starts b Nb) as (sg & d & t & _ & _ & ->); destruct sg; discriminate).
  destruct (number_call zj_strToLong 8 s F v a A f b I H Fa Ev N0 Hr) as (p & s1 & G & Hp & Et & (r & Er) & _ & E).
  exists p, r. split; auto. split; auto. intro z.
  unfold zj_GetLong. rewrite E. unfold zj_strToLong, bind. rewrite (local_copy_eq s1 p b Hp).
  destruct (N.ltb_spec 128 (lenN b)) as [L|L]; [split; [intros (s' & K); discriminate|lia]|].
  unfold deref, ret, readable, lift. rewrite Et, Er. pose proof (ato_number_exactly long_min long_max b r z Nb) as K. rewrite <- K.
  destruct (ato long_min long_max _) as [x|e].
  - split; [intros (s' & K'); injection K' as ->; auto|intros (_ & K'); injection K' as ->; eauto].
  - split; [intros (s' & K'); discriminate|intros (_ & K'); discriminate].
Qed.
(** [p]: where the text of the number is; [r]: what can be read after it. *)
Lemma getLong_exactly p n r z : room s A 8 -> zj_GetNumFast v s = Ok (Some (At p, n), s) -> text_at s p = b ++ r ->
  ((exists s', zj_GetLong v s = Ok (Some z, s')) <-> lenN b <= 128 /\ starts_int (b ++ r) z /\ (long_min <= z <= long_max)%Z).
Proof.
  intros Hr G Er. destruct (getLong_place Hr) as (p' & r' & G' & Er' & K). assert (p' = p) by congruence. subst p'.
  assert (r' = r) by (rewrite Er' in Er; now apply app_inv_head in Er). subst r'. apply K.
Qed.
Lemma getLong_right p n r z : room s A 8 -> zj_GetNumFast v s = Ok (Some (At p, n), s) -> text_at s p = b ++ r -> int_value b z ->
  ((exists s', zj_GetLong v s = Ok (Some z, s')) <-> lenN b <= 128 /\ (long_min <= z <= long_max)%Z /\ follows b r).
Proof. intros Hr G Er Hz. rewrite (getLong_exactly p n r z Hr G Er), (starts_number b r z Hz). tauto. Qed.
Lemma getLong_exactly2 p n r z : room s A 8 -> zj_GetNumFast v s = Ok (Some (At p, n), s) -> text_at s p = b ++ r ->
  ((exists s', zj_GetLong v s = Ok (Some z, s')) <-> lenN b <= 128 /\ starts_int (b ++ r) z /\ (long_min <= z <= long_max)%Z) /\
  ((exists s', zj_GetLongLong v s = Ok (Some z, s')) <-> lenN b <= 128 /\ starts_int (b ++ r) z /\ (long_min <= z <= long_max)%Z).
Proof. intros Hr G Er. split; exact (getLong_exactly p n r z Hr G Er). Qed.
Lemma getLong_right2 p n r z : room s A 8 -> zj_GetNumFast v s = Ok (Some (At p, n), s) -> text_at s p = b ++ r -> int_value b z ->
  ((exists s', zj_GetLong v s = Ok (Some z, s')) <-> lenN b <= 128 /\ (long_min <= z <= long_max)%Z /\ follows b r) /\
  ((exists s', zj_GetLongLong v s = Ok (Some z, s')) <-> lenN b <= 128 /\ (long_min <= z <= long_max)%Z /\ follows b r).
Proof. intros Hr G Er Hz. split; exact (getLong_right p n r z Hr G Er Hz). Qed.
End WithVol.
