(** What GetDouble answers, for every number and whatever follows its text in memory. *)
From Coq Require Import QArith Qpower Qabs Lqa ZifyN.
From Verif Require Import Base Spec Lex LexProofs Alloc AllocProofs Mem MemProofs Api Dom Effect Steps ParseTop GetProofs Vocab ReadFacts
  Double DoubleProofs DoubleFacts LongExact.
Open Scope N_scope.

(** ** Specification: the numbers of C (C11 7.22.1.3), words for infinity and NaN aside *)
(** An exponent after one of the marks, and its value. *)
Definition expo (mark : N -> Prop) (e : bytes) (x : Z) : Prop :=
  e = [] /\ x = 0%Z \/
  exists e0 sg ds, mark e0 /\ ds <> [] /\ Forall is_digit ds /\ e = e0 :: sg ++ ds /\
    ((sg = [] \/ sg = [43]) /\ x = dnum ds \/ sg = [45] /\ x = (- dnum ds)%Z).
(** Digits with a point anywhere among them or without, at least one, and an exponent. *)
Definition c_body (digit mark : N -> Prop) (u i f : bytes) (x : Z) : Prop :=
  exists p e, u = i ++ p ++ e /\ (p = [] /\ f = [] \/ p = 46 :: f) /\ Forall digit i /\ Forall digit f /\ i ++ f <> [] /\ expo mark e x.
Definition c_decimal (u : bytes) (q : Q) : Prop :=
  exists i f x, c_body is_digit (fun c => c = 101 \/ c = 69) u i f x /\
    (q == inject_Z (dnum (i ++ f)) * (10 # 1) ^ (x - Z.of_nat (length f)))%Q.
Definition hex_digit (c : N) : Prop := hexval c <> None.
Definition hex_value (l : bytes) : Z := fold_left (fun acc c => (16 * acc + match hexval c with Some d => Z.of_N d | None => 0 end)%Z) l 0%Z.
Definition c_hexadecimal (u : bytes) (q : Q) : Prop :=
  exists a u' i f x, (a = 120 \/ a = 88) /\ u = 48 :: a :: u' /\ c_body hex_digit (fun c => c = 112 \/ c = 80) u' i f x /\
    (q == inject_Z (hex_value (i ++ f)) * (2 # 1) ^ (x - 4 * Z.of_nat (length f)))%Q.
(** [u] is a number of C with sign [neg] and absolute value [q]. *)
Definition c_number (u : bytes) (neg : bool) (q : Q) : Prop :=
  exists sg m, u = sg ++ m /\ (c_decimal m q \/ c_hexadecimal m q) /\ ((sg = [] \/ sg = [43]) /\ neg = false \/ sg = [45] /\ neg = true).
(** The longest number of C that [t] begins with. *)
Definition longest (t u : bytes) (neg : bool) (q : Q) : Prop :=
  (exists r, t = u ++ r) /\ c_number u neg q /\
  forall u' r' neg' q', t = u' ++ r' -> c_number u' neg' q' -> (length u' <= length u)%nat.
(** More text could make all of [t] the beginning of a number of C that goes on. *)
Definition goes_on (t : bytes) : Prop := exists w neg q, w <> [] /\ c_number (t ++ w) neg q.

(** ** Scanning *)
Lemma run_cmp (D : N -> Prop) : forall i' i c r y, i ++ c :: r = i' ++ y -> Forall D i -> ~ D c -> Forall D i' ->
  i' = i /\ y = c :: r \/ exists d k, i = i' ++ d :: k /\ y = d :: k ++ c :: r /\ D d.
Proof.
  induction i' as [|a i' IH]; intros i c r y E Hi Hc Hi'.
  - cbn [app] in E. subst y. destruct i as [|d k]; [now left|]. right. exists d, k. split; auto. split; auto. now inversion Hi.
  - destruct i as [|b i]; cbn [app] in E.
    + injection E as -> E. elim Hc. now inversion Hi'.
    + injection E as -> E. inversion Hi; inversion Hi'; subst.
      destruct (IH i c r y E) as [[-> ->]|(d & k & -> & -> & Hd)]; auto. right. exists d, k. auto.
Qed.

Section Scan.
Variables (Db mb : N -> bool).
Fixpoint take (s : bytes) : res (bytes * bytes) :=
  match s with
  | [] => Err EOob
  | c :: r => if Db c then (x <-? take r ;; Ok (c :: fst x, snd x)) else Ok ([], s)
  end.
Definition gfraction (s : bytes) : res (bytes * bytes) :=
  match s with
  | [] => Err EOob
  | c :: r => if c =? 46 then take r else Ok ([], s)
  end.
Definition gexp (s : bytes) : res Z :=
  match s with
  | [] => Err EOob
  | c :: r =>
      if mb c then
        match r with
        | [] => Err EOob
        | g :: r' =>
            x <-? take_digits (if (g =? 43) || (g =? 45) then r' else r) ;;
            Ok (if g =? 45 then (- dnum (fst x))%Z else dnum (fst x))
        end
      else Ok 0%Z
  end.
Definition scan (s : bytes) : res (option (bytes * bytes * Z)) :=
  x <-? take s ;; y <-? gfraction (snd x) ;;
  match fst x ++ fst y with [] => Ok None | _ => z <-? gexp (snd y) ;; Ok (Some (fst x, fst y, z)) end.

Let D (c : N) := Db c = true.
Let mark (c : N) := mb c = true.
Hypothesis D46 : Db 46 = false.
Hypothesis D48 : Db 48 = true.
Hypothesis mark_D : forall c, mb c = true -> Db c = false.
Hypothesis mark_d : forall c, mb c = true -> ~ is_digit c.
Hypothesis m46 : mb 46 = false.

Lemma take_cases s : match take s with
  | Ok (i, r) => exists c r', s = i ++ r /\ r = c :: r' /\ Forall D i /\ Db c = false
  | Err e => e = EOob /\ Forall D s
  end.
Proof.
  induction s as [|c s IH]; cbn [take]; [auto|]. destruct (Db c) eqn:E.
  - destruct (take s) as [[i r]|e]; cbn [rbind fst snd].
    + destruct IH as (c' & r' & -> & -> & Hi & Hc). exists c', r'. repeat split; auto.
    + destruct IH as (-> & H). split; auto.
  - exists c, s. repeat split; auto.
Qed.
Lemma digits_cases s : match take_digits s with
  | Ok (i, r) => exists c r', s = i ++ r /\ r = c :: r' /\ Forall is_digit i /\ ~ is_digit c
  | Err e => e = EOob /\ Forall is_digit s
  end.
Proof.
  induction s as [|c s IH]; cbn [take_digits]; [auto|]. destruct (digitb c) eqn:E.
  - apply digitb_spec in E. destruct (take_digits s) as [[i r]|e]; cbn [rbind fst snd].
    + destruct IH as (c' & r' & -> & -> & Hi & Hc). exists c', r'. repeat split; auto.
    + destruct IH as (-> & H). split; auto.
  - exists c, s. repeat split; auto. intro K. apply digitb_spec in K. congruence.
Qed.
Lemma take_more s w i r : take s = Ok (i, r) -> take (s ++ w) = Ok (i, r ++ w).
Proof.
  revert i r. induction s as [|c s IH]; intros i r; cbn [take app]; [discriminate|]. destruct (Db c) eqn:E.
  - destruct (take s) as [[i' r']|]; cbn [rbind fst snd]; [|discriminate]. intros [= <- <-]. now rewrite (IH i' r' eq_refl).
  - intros [= <- <-]. reflexivity.
Qed.
Lemma digits_more s w i r : take_digits s = Ok (i, r) -> take_digits (s ++ w) = Ok (i, r ++ w).
Proof.
  revert i r. induction s as [|c s IH]; intros i r; cbn [take_digits app]; [discriminate|]. destruct (digitb c) eqn:E.
  - destruct (take_digits s) as [[i' r']|]; cbn [rbind fst snd]; [|discriminate]. intros [= <- <-]. now rewrite (IH i' r' eq_refl).
  - intros [= <- <-]. reflexivity.
Qed.
Lemma gfraction_more s w i r : gfraction s = Ok (i, r) -> gfraction (s ++ w) = Ok (i, r ++ w).
Proof. destruct s as [|c s]; cbn [gfraction app]; [discriminate|]. destruct (c =? 46); [apply take_more|]. now intros [= <- <-]. Qed.
Lemma gexp_more s w x : gexp s = Ok x -> gexp (s ++ w) = Ok x.
Proof.
  destruct s as [|c s]; cbn [gexp app]; [discriminate|]. destruct (mb c); auto. destruct s as [|g s]; [discriminate|]. cbn [app].
  destruct ((g =? 43) || (g =? 45)).
  - destruct (take_digits s) as [[i r]|] eqn:E; [|discriminate]. now rewrite (digits_more s w i r E).
  - change (g :: s ++ w) with ((g :: s) ++ w). destruct (take_digits (g :: s)) as [[i r]|] eqn:E; [|discriminate]. now rewrite (digits_more (g :: s) w i r E).
Qed.
Lemma scan_more s w o : scan s = Ok o -> scan (s ++ w) = Ok o.
Proof.
  unfold scan. destruct (take s) as [[i r]|] eqn:E; [|discriminate]. rewrite (take_more s w i r E). cbn [rbind fst snd].
  destruct (gfraction r) as [[f r']|] eqn:E'; [|discriminate]. rewrite (gfraction_more r w f r' E'). cbn [rbind fst snd].
  destruct (i ++ f); auto. destruct (gexp r') as [x|] eqn:Ex; [|discriminate]. now rewrite (gexp_more r' w x Ex).
Qed.

(** *** The exponent *)
Lemma gexp_cases s : match gexp s with
  | Ok x => exists e r, s = e ++ r /\ r <> [] /\ expo mark e x /\
      forall e' r' x', s = e' ++ r' -> expo mark e' x' -> (length e' < length e)%nat \/ e' = e /\ x' = x
  | Err e => e = EOob /\ exists x, s = [] \/ expo mark (s ++ [48]) x
  end.
Proof.
  destruct s as [|c s]; cbn [gexp]; [split; auto; exists 0%Z; auto|]. destruct (mb c) eqn:Mc.
  2: { exists [], (c :: s). repeat split; [discriminate|now left|]. intros e' r' x' E [[-> ->]|(e0 & sg & ds & Me & _ & _ & -> & _)]; auto.
       cbn [app] in E. injection E as -> _. unfold mark in Me. congruence. }
  destruct s as [|g s].
  { split; auto. exists (dnum [48]). right. right. exists c, [], [48]. repeat split; auto; [discriminate|]. constructor; auto. vm_compute. split; discriminate. }
  destruct ((g =? 43) || (g =? 45)) eqn:Eg.
  - assert (Ng : ~ is_digit g) by (unfold is_digit; bools; lia).
    pose proof (digits_cases s) as K. destruct (take_digits s) as [[ds r]|e]; cbn [rbind fst].
    + destruct K as (c' & r' & -> & -> & Hd & Nc). destruct ds as [|d ds].
      * cbn [app]. exists [], (c :: g :: c' :: r'). repeat split; [discriminate|left; split; auto; destruct (g =? 45); reflexivity|].
        intros e' r1 x' E [[-> ->]|(e0 & sg & ds & Me & Hn & Hd' & -> & Hs)]; [right; split; auto; destruct (g =? 45); reflexivity|]. exfalso.
        cbn [app] in E. injection E as <- E. destruct ds as [|d ds]; [congruence|]. inversion Hd' as [|? ? K1 K2]; subst.
        destruct Hs as [[[->| ->] _]|[-> _]]; cbn [app] in E; [injection E as -> _; contradiction|..]; injection E as _ -> _; contradiction.
      * exists (c :: [g] ++ d :: ds), (c' :: r'). split; [reflexivity|]. split; [discriminate|].
        assert (Hx : expo mark (c :: [g] ++ d :: ds) (if g =? 45 then (- dnum (d :: ds))%Z else dnum (d :: ds))).
        { right. exists c, [g], (d :: ds). repeat split; auto; [discriminate|]. destruct (N.eqb_spec g 45) as [->|Ng']; [right; auto|].
          left. split; auto. right. bools. destruct Eg as [->|]; [reflexivity|lia]. }
        split; [exact Hx|]. intros e' r1 x' E [[-> ->]|(e0 & sg & ds' & Me & Hn & Hd' & -> & Hs)]; [left; cbn; lia|].
        assert (Es : sg = [g] /\ (d :: ds) ++ c' :: r' = ds' ++ r1).
        { cbn [app] in E. injection E as <- E. destruct ds' as [|d' ds']; [congruence|]. inversion Hd' as [|? ? K1 K2]; subst.
          destruct Hs as [[[->| ->] _]|[-> _]]; cbn [app] in E; [injection E as -> _; contradiction|..]; injection E as -> -> E; (split; [reflexivity|cbn [app]; now rewrite E]). }
        destruct Es as [-> Es]. cbn [app] in E. injection E as <- _.
        destruct (run_cmp is_digit ds' (d :: ds) c' r' r1 Es Hd Nc Hd') as [[-> ->]|(z & k & Ek & _)].
        -- right. split; auto. destruct Hs as [[[K|K] ->]|[K ->]]; try discriminate; injection K as ->; reflexivity.
        -- left. rewrite Ek. cbn [length app]. rewrite app_length. cbn [length]. lia.
    + destruct K as (-> & K). split; auto. exists (if g =? 45 then (Z.opp (dnum (s ++ [48]))) else dnum (s ++ [48])). right. right. exists c, [g], (s ++ [48]).
      repeat split; auto; [now destruct s|apply Forall_app; split; auto; constructor; auto; vm_compute; split; discriminate|].
      destruct (N.eqb_spec g 45) as [->|Ng']; [right; auto|]. left. split; auto. right. bools. destruct Eg as [->|]; [reflexivity|lia].
  - assert (G1 : g <> 43 /\ g <> 45) by (bools; lia). destruct G1 as [G1 G2]. replace (g =? 45) with false by (symmetry; now apply N.eqb_neq).
    pose proof (digits_cases (g :: s)) as K. destruct (take_digits (g :: s)) as [[ds r]|e]; cbn [rbind fst].
    + destruct K as (c' & r' & Es0 & -> & Hd & Nc). destruct ds as [|d ds]; cbn [app] in Es0; injection Es0 as -> ->.
      * exists [], (c :: c' :: r'). repeat split; [discriminate|left; auto|].
        intros e' r1 x' E [[-> ->]|(e0 & sg & ds & Me & Hn & Hd' & -> & Hs)]; [right; auto|]. exfalso.
        cbn [app] in E. injection E as <- E. destruct ds as [|d ds]; [congruence|]. inversion Hd' as [|? ? K1 K2]; subst.
        destruct Hs as [[[->| ->] _]|[-> _]]; cbn [app] in E; injection E as -> E; [contradiction|congruence|congruence].
      * exists (c :: [] ++ d :: ds), (c' :: r'). split; [reflexivity|]. split; [discriminate|].
        split; [right; exists c, [], (d :: ds); repeat split; auto; discriminate|].
        intros e' r1 x' E [[-> ->]|(e0 & sg & ds' & Me & Hn & Hd' & -> & Hs)]; [left; cbn; lia|].
        assert (Es : sg = [] /\ (d :: ds) ++ c' :: r' = ds' ++ r1).
        { cbn [app] in E. injection E as <- E. destruct Hs as [[[->| ->] _]|[-> _]]; cbn [app] in E; [split; [reflexivity|exact E]|..]; injection E as -> E; congruence. }
        destruct Es as [-> Es]. cbn [app] in E. injection E as <- _.
        destruct (run_cmp is_digit ds' (d :: ds) c' r' r1 Es Hd Nc Hd') as [[-> ->]|(z & k & Ek & _)].
        -- right. split; auto. destruct Hs as [[_ ->]|[K ->]]; [reflexivity|discriminate].
        -- left. rewrite Ek. cbn [length app]. rewrite app_length. cbn [length]. lia.
    + destruct K as (-> & K). split; auto. exists (dnum ((g :: s) ++ [48])). right. right. exists c, [], ((g :: s) ++ [48]).
      repeat split; auto; [discriminate|apply Forall_app; split; auto; constructor; auto; vm_compute; split; discriminate].
Qed.
Lemma frac_cases r : r <> [] -> match gfraction r with
  | Ok (f, r') => exists p c r'', r = p ++ r' /\ r' = c :: r'' /\ (p = [] /\ f = [] /\ c <> 46 \/ p = 46 :: f /\ Db c = false) /\ Forall D f
  | Err e => e = EOob /\ exists f, r = 46 :: f /\ Forall D f
  end.
Proof.
  intro N0. destruct r as [|c r]; [congruence|]. cbn [gfraction]. destruct (N.eqb_spec c 46) as [->|Nc].
  - pose proof (take_cases r) as K. destruct (take r) as [[f r']|e].
    + destruct K as (c' & r'' & -> & -> & Hf & Hc). exists (46 :: f), c', r''. split; [reflexivity|]. split; [reflexivity|]. split; auto.
    + destruct K as (-> & K). eauto.
  - exists [], c, r. auto 8.
Qed.
Lemma expo_head e x r : expo mark e x -> e ++ r = [] \/ e = [] /\ x = 0%Z \/ exists c l, e ++ r = c :: l /\ mb c = true.
Proof. intros [[-> ->]|(e0 & sg & ds & Me & _ & _ & -> & _)]; [auto|]. right. right. cbn [app]. eauto. Qed.
Lemma expo_nil c l e x r : c :: l = e ++ r -> mb c = false -> expo mark e x -> e = [] /\ x = 0%Z.
Proof.
  intros E Mc [H|(e0 & sg & ds & Me & _ & _ & -> & _)]; auto. cbn [app] in E. injection E as <- _. unfold mark in Me. congruence.
Qed.
Lemma scan_cases s : match scan s with
  | Ok (Some (i, f, x)) => exists u r, s = u ++ r /\ r <> [] /\ c_body D mark u i f x /\
      forall u' r' i' f' x', s = u' ++ r' -> c_body D mark u' i' f' x' -> (length u' < length u)%nat \/ u' = u /\ i' = i /\ f' = f /\ x' = x
  | Ok None => forall u' r' i' f' x', s = u' ++ r' -> ~ c_body D mark u' i' f' x'
  | Err e => e = EOob /\ exists i f x, c_body D mark (s ++ [48]) i f x
  end.
Proof.
  assert (MD : forall c, Db c = true -> mb c = false) by (intros c Hc; destruct (mb c) eqn:E; auto; apply mark_D in E; congruence).
  assert (N46 : ~ D 46) by (unfold D; congruence).
  unfold scan. pose proof (take_cases s) as K. destruct (take s) as [[i r]|e]; cbn [rbind fst snd].
  2: { destruct K as (-> & K). split; auto. exists (s ++ [48]), [], 0%Z, [], []. rewrite !app_nil_r.
       repeat split; auto; [apply Forall_app; auto|now destruct s|now left]. }
  destruct K as (c & r0 & Es & Er & Hi & Hc). assert (Nr : r <> []) by (subst r; discriminate).
  assert (NDc : ~ D c) by (unfold D; congruence).
  pose proof (frac_cases r Nr) as K. destruct (gfraction r) as [[f r']|e]; cbn [rbind fst snd].
  2: { destruct K as (-> & f & -> & Hf). split; auto. exists i, (f ++ [48]), 0%Z, (46 :: f ++ [48]), []. subst s.
       repeat split; auto; [now rewrite app_nil_r, <- app_assoc|apply Forall_app; auto|destruct i; [now destruct f|discriminate]|now left]. }
  destruct K as (p & c1 & r1 & Er' & Er1 & Hp & Hf).
  (** any other number *)
  assert (Any : forall u' r2 i' f' x', s = u' ++ r2 -> c_body D mark u' i' f' x' ->
    (length u' < length (i ++ p))%nat \/ u' = i ++ p /\ i' = i /\ f' = f /\ x' = 0%Z \/
    exists e', u' = i ++ p ++ e' /\ i' = i /\ f' = f /\ r' = e' ++ r2 /\ expo mark e' x').
  { intros u' r2 i' f' x' Eu (p' & e' & -> & Hp' & Hi' & Hf' & Nn & He'). rewrite Es, Er, <- !app_assoc in Eu.
    destruct (run_cmp D i' i c r0 _ Eu Hi NDc Hi') as [[-> Ey]|(d & k & -> & Ey & Hd)].
    - rewrite <- Er in Ey. destruct Hp' as [[-> ->]| ->].
      + cbn [app] in Ey |- *. destruct Hp as [(-> & -> & _)|(-> & _)].
        * right. right. exists e'. rewrite app_nil_l in Er'. subst r'. repeat split; auto.
        * left. cbn [app] in Er'. rewrite Er' in Ey. symmetry in Ey. destruct (expo_nil _ _ _ _ _ Ey m46 He') as [-> ->].
          rewrite !app_nil_r, app_length. cbn [length]. lia.
      + cbn [app] in Ey. destruct Hp as [(-> & -> & N1)|(-> & Hc1)].
        * cbn [app] in Er'. subst r' r. injection Ey as E1 _. congruence.
        * cbn [app] in Er'. rewrite Er', Er1 in Ey. injection Ey as Ey. symmetry in Ey. assert (ND1 : ~ D c1) by (unfold D; congruence).
          destruct (run_cmp D f' f c1 r1 _ Ey Hf ND1 Hf') as [[-> Ez]|(d & k & -> & Ez & Hd)].
          -- right. right. exists e'. rewrite <- Er1 in Ez. repeat split; auto.
          -- left. destruct (expo_nil _ _ _ _ _ (eq_sym Ez) (MD d Hd) He') as [-> ->]. rewrite !app_length. cbn [length]. rewrite app_length. cbn [length]. lia.
    - left. assert (p' = []) as ->. { destruct Hp' as [[-> _]| ->]; auto. cbn [app] in Ey. injection Ey as <- _. contradiction. }
      cbn [app] in Ey |- *. destruct (expo_nil _ _ _ _ _ (eq_sym Ey) (MD d Hd) He') as [-> ->]. rewrite !app_length. cbn [length]. lia. }
  destruct (i ++ f) as [|d0 ds0] eqn:Eif.
  - apply app_eq_nil in Eif as [-> ->]. intros u' r2 i' f' x' Eu Hb. pose proof Hb as (p' & e' & Eu' & Hp' & _ & _ & Nn & _).
    destruct (Any u' r2 i' f' x' Eu Hb) as [L|[(_ & -> & -> & _)|(e2 & _ & -> & -> & _)]]; [|now apply Nn|now apply Nn].
    assert (L1 : (length p <= 1)%nat) by (destruct Hp as [(-> & _)|(-> & _)]; cbn; lia). cbn [app] in L. assert (u' = []) as -> by (destruct u'; auto; cbn in L; lia).
    symmetry in Eu'. apply app_eq_nil in Eu' as [-> Eu']. apply app_eq_nil in Eu' as [-> _]. destruct Hp' as [[_ ->]|K]; [now apply Nn|discriminate].
  - assert (Nn : i ++ f <> []) by (rewrite Eif; discriminate).
    assert (Hp2 : p = [] /\ f = [] \/ p = 46 :: f) by tauto.
    pose proof (gexp_cases r') as K. destruct (gexp r') as [x|e]; cbn [rbind].
    + destruct K as (e & r2 & Ee & N2 & He & Max). exists (i ++ p ++ e), r2. split; [rewrite Es, Er', Ee, <- !app_assoc; reflexivity|]. split; auto.
      split; [exists p, e; auto 8|]. intros u' r3 i' f' x' Eu Hb. destruct (Any u' r3 i' f' x' Eu Hb) as [L|[(-> & -> & -> & ->)|(e' & -> & -> & -> & Ee' & He')]].
      * left. rewrite app_assoc, app_length. lia.
      * destruct (Max [] r' 0%Z eq_refl (or_introl (conj eq_refl eq_refl))) as [L|[<- <-]]; [left; rewrite app_assoc, (app_length (i ++ p)); lia|].
        right. rewrite app_nil_r. auto.
      * destruct (Max e' r3 x' Ee' He') as [L|[-> ->]]; [left; rewrite !app_length; lia|right; auto].
    + destruct K as (-> & x & [K|K]); [subst r'; discriminate|]. split; auto. exists i, f, x, p, (r' ++ [48]).
      repeat split; auto. rewrite Es, Er', <- !app_assoc. reflexivity.
Qed.
(** A scan that ends inside: no longer text is a number. *)
Lemma scan_stops s o w i f x : scan s = Ok o -> ~ c_body D mark (s ++ w) i f x.
Proof.
  intros E Hb. pose proof (scan_cases s) as K. pose proof (scan_cases (s ++ w)) as K'. rewrite E in K. rewrite (scan_more s w o E) in K'.
  destruct o as [[[i0 f0] x0]|]; [|exact (K' (s ++ w) [] i f x (eq_sym (app_nil_r _)) Hb)].
  destruct K as (u & r & -> & Nr & _ & Max). destruct K' as (u2 & r2 & E2 & N2 & B2 & Max2).
  destruct (Max2 ((u ++ r) ++ w) [] i f x (eq_sym (app_nil_r _)) Hb) as [L|(Eu & _)].
  - rewrite E2, app_length in L. lia.
  - rewrite Eu in E2. rewrite <- (app_nil_r u2) in E2 at 1. apply app_inv_head in E2. congruence.
Qed.
End Scan.

(** ** Decimal and hexadecimal *)
Lemma c_body_iff (D D' m m' : N -> Prop) u i f x : (forall c, D c <-> D' c) -> (forall c, m c <-> m' c) -> c_body D m u i f x -> c_body D' m' u i f x.
Proof.
  intros HD Hm (p & e & Eu & Hp & Hi & Hf & Nn & He). exists p, e. split; auto. split; auto.
  split; [eapply Forall_impl; [|exact Hi]; intros c; apply HD|]. split; [eapply Forall_impl; [|exact Hf]; intros c; apply HD|]. split; auto.
  destruct He as [He|(e0 & sg & ds & Me & K)]; [now left|]. right. exists e0, sg, ds. split; [now apply Hm|auto].
Qed.
Definition emark (c : N) : bool := (c =? 101) || (c =? 69).
Definition pmark (c : N) : bool := (c =? 112) || (c =? 80).
Definition hexb (c : N) : bool := match hexv c with Some _ => true | None => false end.
Definition hv (c : N) : Z := match hexv c with Some d => d | None => 0%Z end.
Lemma emark_iff c : emark c = true <-> (c = 101 \/ c = 69).
Proof. unfold emark. bools. tauto. Qed.
Lemma pmark_iff c : pmark c = true <-> (c = 112 \/ c = 80).
Proof. unfold pmark. bools. tauto. Qed.
Lemma hexv_eq c : hexv c = option_map Z.of_N (hexval c).
Proof.
  unfold hexv, hexval, digitb. destruct ((48 <=? c) && (c <=? 57)); auto.
  destruct ((97 <=? c) && (c <=? 102)) eqn:E1; destruct ((65 <=? c) && (c <=? 70)) eqn:E2; auto. exfalso. bools. lia.
Qed.
Lemma hexb_iff c : hexb c = true <-> hex_digit c.
Proof. unfold hexb, hex_digit. rewrite hexv_eq. destruct (hexval c); cbn; intuition congruence. Qed.
Lemma take_hex_eq s : take_hex s = match take hexb s with Ok x => Ok (map hv (fst x), snd x) | Err e => Err e end.
Proof.
  induction s as [|c s IH]; auto. cbn [take_hex take]. unfold hexb at 1. destruct (hexv c) as [d|] eqn:E; auto.
  rewrite IH. destruct (take hexb s) as [[i r]|]; auto. cbn [rbind fst snd map]. unfold hv at 2. now rewrite E.
Qed.
Lemma hex_fraction_eq s : hex_fraction s = match gfraction hexb s with Ok x => Ok (map hv (fst x), snd x) | Err e => Err e end.
Proof. destruct s as [|c s]; auto. cbn [hex_fraction gfraction]. destruct (c =? 46); auto. apply take_hex_eq. Qed.
Lemma hnum_eq l : hnum (map hv l) = hex_value l.
Proof.
  unfold hnum, hex_value. assert (K : forall z, fold_left (fun acc d => (16 * acc + d)%Z) (map hv l) z =
    fold_left (fun acc c => (16 * acc + match hexval c with Some d => Z.of_N d | None => 0 end)%Z) l z); [|apply K].
  induction l as [|c l IH]; intro z; auto. cbn [map fold_left]. rewrite IH. f_equal. unfold hv. rewrite hexv_eq. destruct (hexval c); reflexivity.
Qed.
Lemma hex_value_nonneg l : (0 <= hex_value l)%Z.
Proof.
  unfold hex_value. assert (K : forall z, (0 <= z)%Z -> (0 <= fold_left (fun acc c => (16 * acc + match hexval c with Some d => Z.of_N d | None => 0 end)%Z) l z)%Z).
  { induction l as [|c l IH]; intros z Hz; auto. cbn [fold_left]. apply IH. destruct (hexval c); lia. }
  apply K. lia.
Qed.
Lemma binary_nonneg n x : (0 <= n)%Z -> (0 <= inject_Z n * (2 # 1) ^ x)%Q.
Proof. intro H. apply inject_le in H. change (inject_Z 0) with 0%Q in H. pose proof (two_pos x). change (2 # 1)%Q with two. nra. Qed.

Lemma atof_hex_eq neg s : atof_hex neg s = match scan hexb pmark s with
  | Ok (Some (i, f, x)) => Ok (to_double neg (inject_Z (hex_value (i ++ f)) * two ^ (x - 4 * Z.of_nat (length f))))
  | Ok None => Ok (DFin neg 0 (-1074))
  | Err e => Err e
  end.
Proof.
  unfold atof_hex, scan. rewrite take_hex_eq. destruct (take hexb s) as [[i r]|]; auto. cbn [rbind fst snd]. rewrite hex_fraction_eq.
  destruct (gfraction hexb r) as [[f r']|]; auto. cbn [rbind fst snd]. rewrite <- map_app, map_length. change (hex_exp r') with (gexp pmark r').
  destruct (i ++ f) as [|c l] eqn:E; auto. destruct (gexp pmark r'); cbn [map rbind]; auto. now rewrite E, <- hnum_eq.
Qed.
Lemma atof_decimal_eq neg c l : is_digit c -> is_hex (c :: l) = false -> atof_magnitude neg (c :: l) = match scan digitb emark (c :: l) with
  | Ok (Some (i, f, x)) => Ok (to_double neg (inject_Z (dnum (i ++ f)) * ten ^ (x - Z.of_nat (length f))))
  | Ok None => Ok (DFin false 0 (-1074))
  | Err e => Err e
  end.
Proof.
  intros Hc Hh. unfold is_digit in Hc. unfold atof_magnitude. change (txt "inf") with [105; 110; 102]. change (txt "nan") with [110; 97; 110]. cbn [starts].
  destruct (N.eqb_spec 105 c); [lia|]. destruct (N.eqb_spec 110 c); [lia|]. cbn [andb]. rewrite Hh.
  unfold scan. change (take_digits (c :: l)) with (take digitb (c :: l)). destruct (take digitb (c :: l)) as [[i r]|]; auto. cbn [rbind fst snd].
  change (atof_fraction r) with (gfraction digitb r). destruct (gfraction digitb r) as [[f r']|]; auto. cbn [rbind fst snd].
  destruct (i ++ f) as [|c0 l0] eqn:E; auto. change (atof_exp r') with (gexp emark r'). destruct (gexp emark r'); auto. cbn [rbind]. now rewrite E.
Qed.

Definition magn (u : bytes) (q : Q) : Prop := c_decimal u q \/ c_hexadecimal u q.
Lemma decimal_scan u q : c_decimal u q <-> exists i f x, c_body (fun c => digitb c = true) (fun c => emark c = true) u i f x /\
    (q == inject_Z (dnum (i ++ f)) * (10 # 1) ^ (x - Z.of_nat (length f)))%Q.
Proof.
  split; intros (i & f & x & Hb & Hq); exists i, f, x; (split; auto); (eapply c_body_iff; [| |exact Hb]); intro c;
    [symmetry; apply digitb_spec|symmetry; apply emark_iff|apply digitb_spec|apply emark_iff].
Qed.
Lemma hex_scan u q : c_hexadecimal u q <-> exists a u' i f x, (a = 120 \/ a = 88) /\ u = 48 :: a :: u' /\
    c_body (fun c => hexb c = true) (fun c => pmark c = true) u' i f x /\
    (q == inject_Z (hex_value (i ++ f)) * (2 # 1) ^ (x - 4 * Z.of_nat (length f)))%Q.
Proof.
  split; intros (a & u' & i & f & x & Ha & Eu & Hb & Hq); exists a, u', i, f, x; (split; auto); (split; auto); (split; auto);
    (eapply c_body_iff; [| |exact Hb]); intro c; [symmetry; apply hexb_iff|symmetry; apply pmark_iff|apply hexb_iff|apply pmark_iff].
Qed.
(** Before an x only the 0 is decimal. *)
Lemma decimal_0x a l u r q : a = 120 \/ a = 88 -> 48 :: a :: l = u ++ r -> c_decimal u q -> u = [48] /\ (q == 0)%Q.
Proof.
  intros Ha E (i & f & x & (p & e & -> & Hp & Hi & Hf & Nn & He) & Hq). rewrite <- !app_assoc in E. change (48 :: a :: l) with ([48] ++ a :: l) in E.
  assert (H48 : Forall is_digit [48]) by (constructor; auto; unfold is_digit; lia).
  destruct (run_cmp is_digit i [48] a l _ E H48) as [[-> Ey]|(d & k & Ek & Ey & Hd)]; auto; [unfold is_digit; lia|..].
  - assert (p = []) as ->. { destruct Hp as [[-> _]| ->]; auto. cbn [app] in Ey. injection Ey as K _. lia. }
    destruct Hp as [[_ ->]|K]; [|discriminate].
    assert (e = [] /\ x = 0%Z) as [-> ->]. { destruct He as [He|(e0 & sg & ds & Me & _ & _ & -> & _)]; auto. cbn [app] in Ey. injection Ey as -> _. lia. }
    split; auto.
  - destruct i as [|i0 i]; [|destruct i; discriminate]. cbn [app] in Ek. injection Ek as <- <-. cbn [app] in Ey.
    destruct Hp as [[-> ->]| ->]; [now elim Nn|]. discriminate.
Qed.
Lemma hex_is u q r : c_hexadecimal u q -> is_hex (u ++ r) = true.
Proof. intros (a & u' & i & f & x & Ha & -> & _). cbn. now destruct Ha as [->| ->]. Qed.

Lemma magnitude_cases neg d l : is_digit d -> match atof_magnitude neg (d :: l) with
  | Ok y => exists u r q, d :: l = u ++ r /\ magn u q /\ rounds neg q y /\
      (forall u' r' q', d :: l = u' ++ r' -> magn u' q' -> (length u' < length u)%nat \/ u' = u /\ (q' == q)%Q) /\
      forall w q', ~ magn ((d :: l) ++ w) q'
  | Err e => e = EOob /\ exists q, magn ((d :: l) ++ [48]) q
  end.
Proof.
  intro Hd. destruct (is_hex (d :: l)) eqn:Hh.
  - destruct l as [|a l]; [discriminate|]. cbn [is_hex] in Hh. bools. destruct Hh as [-> Ha].
    unfold atof_magnitude. replace (starts (txt "inf") (48 :: a :: l)) with false by reflexivity. replace (starts (txt "nan") (48 :: a :: l)) with false by reflexivity.
    replace (is_hex (48 :: a :: l)) with true by (symmetry; cbn [is_hex]; bools; auto). cbn [skipn]. rewrite atof_hex_eq.
    assert (Dec : forall w q', ~ c_decimal ((48 :: a :: l) ++ w) q').
    { intros w q' K. destruct (decimal_0x a (l ++ w) _ [] q' Ha (eq_sym (app_nil_r _)) K). discriminate. }
    pose proof (scan_cases hexb pmark) as K. specialize (fun A1 A2 A3 A4 A5 => K A1 A2 A3 A4 A5 l).
    pose proof (scan_stops hexb pmark) as St. specialize (fun A1 A2 A3 A4 A5 => St A1 A2 A3 A4 A5 l).
    assert (P1 : hexb 46 = false) by reflexivity. assert (P2 : hexb 48 = true) by reflexivity.
    assert (P3 : forall c, pmark c = true -> hexb c = false) by (intros c Hc; apply pmark_iff in Hc as [->| ->]; reflexivity).
    assert (P4 : forall c, pmark c = true -> ~ is_digit c) by (intros c Hc; apply pmark_iff in Hc; unfold is_digit; lia).
    assert (P5 : pmark 46 = false) by reflexivity.
    destruct (scan hexb pmark l) as [[[[i f] x]|]|e].
    + destruct K as (u & r & -> & Nr & Hb & Max); auto. exists (48 :: a :: u), r. eexists. split; [reflexivity|].
      split; [right; apply hex_scan; exists a, u, i, f, x; split; auto; split; auto; split; [exact Hb|reflexivity]|].
      split; [apply to_double_rounds, binary_nonneg, hex_value_nonneg|]. split.
      * intros u' r' q' E [Hm|Hm].
        -- destruct (decimal_0x a _ u' r' q' Ha E Hm) as [-> _]. left. cbn. lia.
        -- apply hex_scan in Hm as (a' & u2 & i' & f' & x' & _ & -> & Hb' & Hq). cbn [app] in E. injection E as <- E.
           destruct (Max u2 r' i' f' x' E Hb') as [L|(-> & -> & -> & ->)]; [left; cbn; lia|right; auto].
      * intros w q' [Hm|Hm]; [exact (Dec w q' Hm)|]. apply hex_scan in Hm as (a' & u2 & i' & f' & x' & _ & E & Hb' & _).
        cbn [app] in E. injection E as _ <-. eapply St; eauto.
    + exists [48], (a :: l), 0%Q. split; [reflexivity|].
      split; [left; exists [48], [], 0%Z; split; [exists [], []; split; [reflexivity|]; split; [now left|]; split; [constructor; auto; unfold is_digit; lia|]; split; [constructor|]; split; [discriminate|now left]|reflexivity]|].
      split; [exact (to_double_rounds neg 0 (Qle_refl 0))|]. split.
      * intros u' r' q' E [Hm|Hm]; [right; exact (decimal_0x a _ u' r' q' Ha E Hm)|]. exfalso.
        apply hex_scan in Hm as (a' & u2 & i' & f' & x' & _ & -> & Hb' & Hq). cbn [app] in E. injection E as <- E. eapply K; eauto.
      * intros w q' [Hm|Hm]; [exact (Dec w q' Hm)|]. apply hex_scan in Hm as (a' & u2 & i' & f' & x' & _ & E & Hb' & _).
        cbn [app] in E. injection E as _ <-. eapply St; eauto.
    + destruct K as (-> & i & f & x & Hb); auto. split; auto. eexists. right. apply hex_scan. exists a, (l ++ [48]), i, f, x.
      split; auto. split; auto. split; [exact Hb|reflexivity].
  - rewrite atof_decimal_eq by auto.
    assert (Hex : forall u' r' q', d :: l = u' ++ r' -> ~ c_hexadecimal u' q') by (intros u' r' q' E Hm; apply (hex_is _ _ r') in Hm; congruence).
    pose proof (scan_cases digitb emark) as K. specialize (fun A1 A2 A3 A4 A5 => K A1 A2 A3 A4 A5 (d :: l)).
    pose proof (scan_stops digitb emark) as St. specialize (fun A1 A2 A3 A4 A5 => St A1 A2 A3 A4 A5 (d :: l)).
    assert (P1 : digitb 46 = false) by reflexivity. assert (P2 : digitb 48 = true) by reflexivity.
    assert (P3 : forall c, emark c = true -> digitb c = false) by (intros c Hc; apply emark_iff in Hc as [->| ->]; reflexivity).
    assert (P4 : forall c, emark c = true -> ~ is_digit c) by (intros c Hc; apply emark_iff in Hc; unfold is_digit; lia).
    assert (P5 : emark 46 = false) by reflexivity.
    assert (Hex' : forall o w q', scan digitb emark (d :: l) = Ok o -> ~ c_hexadecimal ((d :: l) ++ w) q').
    { intros o w q' Eo Hm. apply (hex_is _ _ []) in Hm. rewrite app_nil_r in Hm. destruct l as [|a l]; [|cbn [app is_hex] in *; congruence].
      unfold scan in Eo. cbn [take] in Eo. replace (digitb d) with true in Eo by (symmetry; now apply digitb_spec). discriminate. }
    destruct (scan digitb emark (d :: l)) as [[[[i f] x]|]|e].
    + destruct K as (u & r & E0 & Nr & Hb & Max); auto. exists u, r. eexists. split; [exact E0|].
      split; [left; apply decimal_scan; exists i, f, x; split; [exact Hb|reflexivity]|].
      split; [apply to_double_rounds, decimal_nonneg|]. split.
      * intros u' r' q' E [Hm|Hm]; [|elim (Hex u' r' q' E Hm)].
        apply decimal_scan in Hm as (i' & f' & x' & Hb' & Hq). destruct (Max u' r' i' f' x' E Hb') as [L|(-> & -> & -> & ->)]; auto.
      * intros w q' [Hm|Hm]; [|exact (Hex' _ w q' eq_refl Hm)]. apply decimal_scan in Hm as (i' & f' & x' & Hb' & _). eapply St; eauto.
    + exfalso. refine (K _ _ _ _ _ [d] l [d] [] 0%Z eq_refl _); auto. exists [], []. split; [reflexivity|]. split; [now left|]. split; [constructor; auto; now apply digitb_spec|]. split; [constructor|]. split; [discriminate|now left].
    + destruct K as (-> & i & f & x & Hb); auto. split; auto. eexists. left. apply decimal_scan. exists i, f, x. split; [exact Hb|reflexivity].
Qed.

(** ** atof *)
Lemma magn_head m q : magn m q -> exists c l, m = c :: l /\ (is_digit c \/ c = 46).
Proof.
  intros [(i & f & x & (p & e & -> & Hp & Hi & Hf & Nn & _) & _)|(a & u & i & f & x & _ & -> & _)]; [|exists 48; eexists; split; [reflexivity|left; unfold is_digit; lia]].
  destruct i as [|c i]; [|inversion Hi; subst; cbn [app]; eauto]. destruct Hp as [[-> ->]| ->]; [now elim Nn|]. cbn [app]. eauto.
Qed.
Lemma signed neg d l u r neg' q : is_digit d -> sign_text neg ++ d :: l = u ++ r -> c_number u neg' q ->
  exists m, u = sign_text neg ++ m /\ neg' = neg /\ magn m q /\ d :: l = m ++ r.
Proof.
  intros Hd E (sg & m & -> & Hm & Hs). unfold is_digit in Hd. destruct (magn_head m q Hm) as (c & k & -> & Hc). unfold is_digit in Hc. exists (c :: k).
  destruct Hs as [[[->| ->] ->]|[-> ->]]; destruct neg; cbn [sign_text app] in E |- *; injection E as E1 E2; try lia; subst; auto.
Qed.
Theorem atof_cases b r : number b -> match atof (b ++ r) with
  | Ok y => ~ goes_on (b ++ r) /\ exists u neg q, longest (b ++ r) u neg q /\ rounds neg q y /\
      forall u' neg' q', longest (b ++ r) u' neg' q' -> u' = u /\ neg' = neg /\ (q' == q)%Q
  | Err e => e = EOob /\ goes_on (b ++ r)
  end.
Proof.
  intro Nb. destruct (number_starts b Nb) as (sg & d & t & Hs & Hd & ->). rewrite <- app_assoc. cbn [app].
  assert (exists neg, sg = sign_text neg) as (neg & ->) by (destruct Hs as [->| ->]; [exists false|exists true]; reflexivity).
  rewrite atof_sign by auto. pose proof (magnitude_cases neg d (t ++ r) Hd) as K.
  assert (Sg : forall m q, magn m q -> c_number (sign_text neg ++ m) neg q).
  { intros m q Hm. exists (sign_text neg), m. split; auto. split; auto. destruct neg; [right|left]; auto. }
  destruct (atof_magnitude neg (d :: t ++ r)) as [y|e].
  - destruct K as (u & r' & q & E & Hm & Hr & Max & St). split.
    + intros (w & neg' & q' & _ & Hw). rewrite <- app_assoc in Hw. cbn [app] in Hw.
      destruct (signed neg d ((t ++ r) ++ w) _ [] neg' q' Hd (eq_sym (app_nil_r _)) Hw) as (m & Em & _ & Hm' & _).
      apply app_inv_head in Em. subst m. exact (St w q' Hm').
    + exists (sign_text neg ++ u), neg, q. rewrite E. split; [split; [|split; [now apply Sg|]]|split; [exact Hr|]].
      * exists r'. now rewrite <- app_assoc.
      * rewrite <- E. intros u' r2 neg' q' E' Hn. destruct (signed neg d (t ++ r) u' r2 neg' q' Hd E' Hn) as (m & -> & _ & Hm' & Em).
        rewrite !app_length. destruct (Max m r2 q' Em Hm') as [L|[-> _]]; lia.
      * rewrite <- E. intros u' neg' q' ((r2 & E') & Hn & Max'). destruct (signed neg d (t ++ r) u' r2 neg' q' Hd E' Hn) as (m & -> & -> & Hm' & Em).
        destruct (Max m r2 q' Em Hm') as [L|[-> Hq]]; auto.
        assert (Eu : sign_text neg ++ d :: t ++ r = (sign_text neg ++ u) ++ r') by (rewrite E; apply app_assoc).
        pose proof (Max' _ r' neg q Eu (Sg u q Hm)) as L'. rewrite !app_length in L'. lia.
  - destruct K as (-> & q & Hq). split; auto. exists [48], neg, q. split; [discriminate|]. rewrite <- app_assoc. now apply Sg.
Qed.

(** A JSON number is a number of C, of the same value. *)
Lemma dec_c_number b neg q : DoubleFacts.dec_value b neg q -> c_number b neg q.
Proof.
  intros (i & f & e & x & -> & Hi & Hf & He & Hq). destruct (int_part_head i Hi) as (c & l & Ei & _ & Di).
  exists (if neg then [45] else []). eexists. split; [reflexivity|]. split; [|destruct neg; auto]. left. exists i, f, x. split; [|exact Hq].
  exists (match f with [] => [] | _ => 46 :: f end), e. split; auto. split; [destruct f; auto|]. split; auto. split; auto.
  split; [subst i; discriminate|]. destruct He as [He|He]; [now left|now right].
Qed.
(** The longest number of C exists: something begins with a number. *)
Lemma atof_longest b r y : number b -> (atof (b ++ r) = Ok y <-> ~ goes_on (b ++ r) /\ exists u neg q, longest (b ++ r) u neg q /\ rounds neg q y).
Proof.
  intro Nb. pose proof (atof_cases b r Nb) as K. destruct (atof (b ++ r)) as [y'|e].
  - destruct K as (G & u & neg & q & L & R & Un). split.
    + intros [= <-]. split; auto. exists u, neg, q. auto.
    + intros (_ & u' & neg' & q' & L' & R'). destruct (Un u' neg' q' L') as (-> & -> & Eq). f_equal.
      eapply rounds_unique; [exact R|]. eapply rounds_eq; [exact Eq|exact R'].
  - split; [discriminate|]. intros (G & _). now elim G.
Qed.

Section WithVol.
Context {VV : vols}.
Variables (s : st) (F : dom) (v a : addr) (A : N) (f : fnode) (b : bytes).
Hypothesis I : inv s F.
Hypothesis H : on s F v a A.
Hypothesis Rd : reads F a (JNum b).
Hypothesis Fa : F a = Some f.
Hypothesis Nb : number b.
Lemma getDouble_call p n r : room s A 8 -> zj_GetNumFast v s = Ok (Some (At p, n), s) -> text_at s p = b ++ r ->
  exists s1, untouched s F s1 /\ zj_GetDouble v s = if 128 <? lenN b then Err EOverflow else match atof (b ++ r) with Ok d => Ok (Some d, s1) | Err e => Err e end.
Proof.
  intros Hr G Er. assert (Ev : fvalue f = VNum b) by (eapply num_here; eauto).
  assert (N0 : b <> []) by (destruct (number_starts b Nb) as (sg & d & t & _ & _ & ->); destruct sg; discriminate).
  destruct (number_call zj_strToDouble_text 8 s F v a A f b I H Fa Ev N0 Hr) as (p' & s1 & G' & Hp & Et & _ & U & E).
  assert (p' = p) by congruence. subst p'. exists s1. split; auto.
  unfold zj_GetDouble, zj_GetDouble_text, bind at 1. rewrite E. unfold zj_strToDouble_text, bind at 1. rewrite (local_copy_eq s1 p b Hp).
  destruct (N.ltb_spec 128 (lenN b)) as [L|L]; [reflexivity|].
  unfold deref, ret, readable, lift, bind. rewrite Et, Er. destruct (b ++ r) eqn:Eb; [now destruct b|]. destruct (atof _); reflexivity.
Qed.
Lemma getDouble_exactly p n r d : room s A 8 -> zj_GetNumFast v s = Ok (Some (At p, n), s) -> text_at s p = b ++ r ->
  ((exists s', zj_GetDouble v s = Ok (Some d, s')) <->
   lenN b <= 128 /\ ~ goes_on (b ++ r) /\ exists u neg q, longest (b ++ r) u neg q /\ rounds neg q d).
Proof.
  intros Hr G Er. destruct (getDouble_call p n r Hr G Er) as (s1 & _ & ->). rewrite <- atof_longest by auto.
  destruct (N.ltb_spec 128 (lenN b)) as [L|L]; [split; [intros (s' & K); discriminate|lia]|].
  destruct (atof (b ++ r)) as [y|e].
  - split; [intros (s' & [= <- _]); auto|intros (_ & [= <-]); eauto].
  - split; [intros (s' & K); discriminate|intros (_ & K); discriminate].
Qed.
(** What else can happen: an overflow, or a read beyond what can be read. *)
Lemma getDouble_otherwise p n r : room s A 8 -> zj_GetNumFast v s = Ok (Some (At p, n), s) -> text_at s p = b ++ r ->
  (128 < lenN b -> zj_GetDouble v s = Err EOverflow) /\ (lenN b <= 128 -> goes_on (b ++ r) -> zj_GetDouble v s = Err EOob).
Proof.
  intros Hr G Er. destruct (getDouble_call p n r Hr G Er) as (s1 & _ & ->). split.
  - intro L. destruct (N.ltb_spec 128 (lenN b)); [reflexivity|lia].
  - intros L Go. destruct (N.ltb_spec 128 (lenN b)); [lia|]. pose proof (atof_cases b r Nb) as K. destruct (atof (b ++ r)) as [y|e].
    + destruct K as [K _]. contradiction.
    + destruct K as [-> _]. reflexivity.
Qed.
(** Right if no longer number of C stands there. *)
Lemma getDouble_right p n r neg q : room s A 8 -> zj_GetNumFast v s = Ok (Some (At p, n), s) -> text_at s p = b ++ r ->
  DoubleFacts.dec_value b neg q -> lenN b <= 128 -> ~ goes_on (b ++ r) ->
  (forall k w neg' q', r = k ++ w -> k <> [] -> ~ c_number (b ++ k) neg' q') ->
  exists d s', zj_GetDouble v s = Ok (Some d, s') /\ rounds neg q d /\ untouched s F s'.
Proof.
  intros Hr G Er Hq L Ng Nl. destruct (getDouble_call p n r Hr G Er) as (s1 & U & E).
  destruct (N.ltb_spec 128 (lenN b)) as [L'|_]; [lia|].
  pose proof (atof_cases b r Nb) as K. destruct (atof (b ++ r)) as [y|e]; [|destruct K as [_ K]; contradiction].
  destruct K as (_ & u & neg' & q' & Lu & R & Un). exists y, s1. split; auto. split; auto.
  destruct (Un b neg q) as (_ & -> & Eq); [|eapply rounds_eq; [symmetry; exact Eq|exact R]].
  split; [eauto|]. split; [now apply dec_c_number|]. intros u' r' neg2 q2 E2 H2. destruct (Nat.leb_spec (length u') (length b)) as [|Lt]; auto. exfalso.
  assert (Eu : exists k, u' = b ++ k /\ r = k ++ r').
  { clear - E2 Lt. revert u' E2 Lt. induction b as [|x l IH]; intros u' E2 Lt; [exists u'; auto|]. destruct u' as [|z u']; [cbn in Lt; lia|].
    cbn [app length] in *. injection E2 as -> E2. destruct (IH u' E2) as (k & -> & ->); [lia|]. eauto. }
  destruct Eu as (k & -> & Ek). eapply (Nl k r'); eauto. intros ->. rewrite app_nil_r in Lt. lia.
Qed.
End WithVol.
