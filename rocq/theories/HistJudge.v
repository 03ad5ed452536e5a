(** An executable judge (Hist.v) with its proof of correctness: the hypothesis [correct] of
    the theorems about histories is met, and the reference semantics can be run. *)
From Verif Require Import Base Spec Lex LexProofs PureParse Dom EscProofs Scene ParseFacts ReadFacts Hist HistStep.
From Verif Require Double DoubleProofs DoubleFacts Vocab OverRead.

(** ** Strings *)
Definition hexv (a b c d : N) : option N :=
  match hexval a, hexval b, hexval c, hexval d with
  | Some x, Some y, Some z, Some t => Some (4096 * x + 256 * y + 16 * z + t)
  | _, _, _, _ => None
  end.
Lemma hexv_ok a b c d v : hexv a b c d = Some v <-> hex4 a b c d v.
Proof.
  unfold hexv, hex4. split.
  - destruct (hexval a), (hexval b), (hexval c), (hexval d); try discriminate. intros [= <-]. repeat eexists.
  - intros (x & y & z & t & -> & -> & -> & -> & ->). reflexivity.
Qed.
Definition highb (v : N) : bool := (55296 <=? v) && (v <=? 56319).
Definition lowb (v : N) : bool := (56320 <=? v) && (v <=? 57343).
Lemma highb_ok v : highb v = true <-> high_surrogate v.
Proof. unfold highb, high_surrogate. rewrite andb_true_iff, !N.leb_le. tauto. Qed.
Lemma lowb_ok v : lowb v = true <-> low_surrogate v.
Proof. unfold lowb, low_surrogate. rewrite andb_true_iff, !N.leb_le. tauto. Qed.
Definition onto (h : bytes) (o : option bytes) : option bytes := option_map (app h) o.
Fixpoint dec (n : nat) (s : bytes) : option bytes :=
  match n with
  | O => None
  | S n =>
      match s with
      | [] => Some []
      | e :: r =>
          if e =? 92 then
            match r with
            | [] => None
            | k :: r =>
                match short_escape k with
                | Some x => onto [x] (dec n r)
                | None =>
                    if k =? 117 then
                      match r with
                      | a :: b :: c :: d :: r =>
                          match hexv a b c d with
                          | None => None
                          | Some v =>
                              if highb v then
                                match r with
                                | e1 :: e2 :: a' :: b' :: c' :: d' :: r =>
                                    match hexv a' b' c' d' with
                                    | Some v' =>
                                        if (e1 =? 92) && (e2 =? 117) && lowb v'
                                        then onto (utf8 (65536 + (v - 55296) * 1024 + (v' - 56320))) (dec n r) else None
                                    | None => None
                                    end
                                | _ => None
                                end
                              else if lowb v then None
                              else onto (utf8 v) (dec n r)
                          end
                      | _ => None
                      end
                    else None
                end
            end
          else if (32 <=? e) && negb (e =? 34) then onto [e] (dec n r) else None
      end
  end.
Lemma onto_some h o d : onto h o = Some d -> exists d', o = Some d' /\ d = h ++ d'.
Proof. unfold onto. destruct o as [d'|]; [|discriminate]. intros [= <-]. eauto. Qed.
Lemma dec_sound n : forall s d, dec n s = Some d -> decodes s d.
Proof.
  induction n as [|n IH]; intros s d H; [discriminate|]. cbn [dec] in H.
  destruct s as [|e r]; [injection H as <-; constructor|]. destruct (N.eqb_spec e 92) as [->|Ne].
  - destruct r as [|k r]; [discriminate|]. destruct (short_escape k) as [x|] eqn:Ek.
    + apply onto_some in H as (d' & H & ->). apply dec_short; auto.
    + destruct (N.eqb_spec k 117) as [->|]; [|discriminate]. destruct r as [|a [|b [|c [|dd r]]]]; try discriminate.
      destruct (hexv a b c dd) as [v|] eqn:Ev; [|discriminate]. apply hexv_ok in Ev. destruct (highb v) eqn:Eh.
      * apply highb_ok in Eh. destruct r as [|e1 [|e2 [|a' [|b' [|c' [|d' r]]]]]]; try discriminate.
        destruct (hexv a' b' c' d') as [v'|] eqn:Ev'; [|discriminate]. apply hexv_ok in Ev'.
        destruct ((e1 =? 92) && (e2 =? 117) && lowb v') eqn:Ec; [|discriminate].
        apply andb_prop in Ec as [Ec El]. apply andb_prop in Ec as [E1 E2]. apply N.eqb_eq in E1 as ->. apply N.eqb_eq in E2 as ->. apply lowb_ok in El.
        apply onto_some in H as (o & H & ->). eapply dec_pair; eauto.
      * destruct (lowb v) eqn:El; [discriminate|]. apply onto_some in H as (o & H & ->). eapply dec_u; eauto.
        -- intro K. apply highb_ok in K. congruence.
        -- intro K. apply lowb_ok in K. congruence.
  - destruct ((32 <=? e) && negb (e =? 34)) eqn:Ec; [|discriminate]. apply andb_prop in Ec as [E1 E2]. apply N.leb_le in E1.
    apply Bool.negb_true_iff, N.eqb_neq in E2. apply onto_some in H as (o & H & ->). apply dec_plain; auto.
Qed.
Lemma dec_complete s d : decodes s d -> forall n, (length s < n)%nat -> dec n s = Some d.
Proof.
  induction 1 as [|c r o H1 H2 H3 _ IH|c x r o Hc _ IH|a b c d v r o Hv Hh Hl _ IH|a b c d a' b' c' d' v v' r o Hv Hh Hv' Hl _ IH];
    intros n Hn; (destruct n as [|n]; [cbn in Hn; lia|]); cbn [dec]; cbn [length] in Hn.
  - reflexivity.
  - destruct (N.eqb_spec c 92); [contradiction|]. apply N.leb_le in H1. apply N.eqb_neq in H2. rewrite H1, H2. cbn [andb negb]. now rewrite IH by lia.
  - cbn [N.eqb]. change (92 =? 92) with true. cbv iota. rewrite Hc, IH by lia. reflexivity.
  - change (92 =? 92) with true. cbv iota. change (short_escape 117) with (@None N). cbv iota. change (117 =? 117) with true. cbv iota.
    apply hexv_ok in Hv. rewrite Hv. destruct (highb v) eqn:E1; [apply highb_ok in E1; contradiction|].
    destruct (lowb v) eqn:E2; [apply lowb_ok in E2; contradiction|]. now rewrite IH by lia.
  - change (92 =? 92) with true. cbv iota. change (short_escape 117) with (@None N). cbv iota. change (117 =? 117) with true. cbv iota.
    apply hexv_ok in Hv, Hv'. rewrite Hv, Hv'. apply highb_ok in Hh. apply lowb_ok in Hl. rewrite Hh, Hl. change (92 =? 92) with true. cbn [andb]. now rewrite IH by lia.
Qed.

(** ** Numbers and texts *)
Definition ends0 (r : res (option N)) (t : bytes) : bool :=
  match r with Ok (Some l) => negb (has0 t) && (l =? N.of_nat (length t)) | _ => false end.
Definition numb (t : bytes) : bool := ends0 (zj_checkNum (t ++ [0])) t.
Definition strb (t : bytes) : bool := ends0 (zj_checkStr (t ++ [0])) t.
Lemma numb_ok t : numb t = true <-> number t.
Proof.
  unfold numb, ends0. split.
  - destruct (zj_checkNum _) as [[l|]|] eqn:E; try discriminate. intro H. apply andb_prop in H as [H _]. apply Bool.negb_true_iff, has0_no in H.
    apply (checkNum_iff t [] l) in E; tauto.
  - intro H. rewrite checkNum_yes by auto. rewrite N.eqb_refl, Bool.andb_true_r. apply Bool.negb_true_iff. destruct (has0 t) eqn:E; auto.
    exfalso. apply (number_no0 _ H). clear -E. induction t as [|c t IH]; [discriminate|]. cbn in E. apply orb_prop in E as [E|E]; [left; now apply N.eqb_eq in E|right; auto].
Qed.
Lemma strb_ok t : strb t = true <-> strbody_set t.
Proof.
  unfold strb, ends0. split.
  - destruct (zj_checkStr _) as [[l|]|] eqn:E; try discriminate. intro H. apply andb_prop in H as [H _]. apply Bool.negb_true_iff, has0_no in H.
    apply (checkStr_iff t [] l) in E; tauto.
  - intro H. rewrite checkStr_yes by auto. rewrite N.eqb_refl, Bool.andb_true_r. apply Bool.negb_true_iff. destruct (has0 t) eqn:E; auto.
    exfalso. apply (strbody_no0 _ (strbody_set_strbody _ H)). clear -E. induction t as [|c t IH]; [discriminate|]. cbn in E. apply orb_prop in E as [E|E]; [left; now apply N.eqb_eq in E|right; auto].
Qed.
Fixpoint lead (t : bytes) : bytes := match t with c :: r => if digitb c then c :: lead r else [] | [] => [] end.
Lemma lead_app ds : Forall is_digit ds -> forall c r, ~ is_digit c -> lead (ds ++ c :: r) = ds.
Proof.
  induction 1 as [|d ds Hd _ IH]; intros c r Hc; cbn [app lead].
  - destruct (digitb c) eqn:E; auto. apply digitb_spec in E. contradiction.
  - apply digitb_spec in Hd. rewrite Hd. f_equal. auto.
Qed.
Definition intb (t : bytes) : option Z :=
  if numb t then Some (match t with
                       | c :: r => if c =? 45 then (- dec_value (lead (r ++ [0%N])))%Z else dec_value (lead (t ++ [0%N]))
                       | [] => 0%Z
                       end) else None.
Lemma intb_ok t z : intb t = Some z <-> int_value t z.
Proof.
  unfold intb. assert (K : forall sg i f e, (sg = [] \/ sg = [45]) -> int_part i -> frac_part f -> exp_part e -> t = sg ++ i ++ f ++ e ->
    (match t with c :: r => if c =? 45 then (- dec_value (lead (r ++ [0%N])))%Z else dec_value (lead (t ++ [0%N])) | [] => 0%Z end)
    = (if sg then dec_value i else - dec_value i)%Z).
  { intros sg i f e Hs Hi Hf He ->. destruct (int_part_digits i Hi) as (Hd & d & ds & -> & Hd1).
    destruct (after_int f e 0 [] Hf He) as (c' & r' & E & Nc); [unfold is_digit; lia|].
    assert (El : lead ((d :: ds) ++ f ++ e ++ [0]) = d :: ds) by (rewrite E; now apply lead_app).
    destruct Hs as [-> | ->].
    - rewrite app_nil_l. cbn [app]. destruct (N.eqb_spec d 45) as [->|_]; [unfold is_digit in Hd1; lia|].
      f_equal. cbn [app] in El. rewrite <- app_assoc. rewrite <- app_assoc. exact El.
    - cbn [app]. change (45 =? 45) with true. cbv iota. f_equal. f_equal. cbn [app] in El. rewrite <- app_assoc. rewrite <- app_assoc. exact El. }
  split.
  - destruct (numb t) eqn:En; [|discriminate]. intros [= <-]. apply numb_ok in En as (sg & i & f & e & Hs & Hi & Hf & He & Et).
    exists sg, i, f, e. repeat (split; auto). eauto.
  - intros (sg & i & f & e & Hs & Hi & Hf & He & Et & ->). assert (En : numb t = true) by (apply numb_ok; exists sg, i, f, e; auto).
    rewrite En. f_equal. eauto.
Qed.
Definition realb (t : bytes) : option Double.double :=
  if numb t then match Double.atof (t ++ [0]) with Ok d => Some d | Err _ => None end else None.
Lemma realb_ok t d : realb t = Some d <-> DoubleFacts.real_value t d.
Proof.
  assert (E0 : DoubleProofs.ends 0) by (unfold DoubleProofs.ends, is_digit; lia). unfold realb. split.
  - destruct (numb t) eqn:En; [|discriminate]. apply numb_ok in En. destruct (DoubleFacts.number_real t En) as (d' & H).
    rewrite (DoubleFacts.atof_real t d' 0 [] H E0). now intros [= <-].
  - intro H. rewrite (proj2 (numb_ok t) (DoubleFacts.real_number t d H)). now rewrite (DoubleFacts.atof_real t d 0 [] H E0).
Qed.
Definition jsonb (t : bytes) : option json := match ptop (t ++ 0 :: [0; 0; 0; 0]) with Ok (Some j) => Some j | _ => None end.
Lemma jsonb_ok t j : ~ In 0 t -> (jsonb t = Some j <-> json_text t j).
Proof.
  intro N0. unfold jsonb. split.
  - destruct (ptop _) as [[j'|]|] eqn:E; try discriminate. intros [= ->]. apply ptop_sound in E as (t' & sl & Et & Hj).
    apply split_at_0 in Et as [-> _]; auto. eapply json_text_no0; eauto.
  - intro H. now rewrite (ptop_complete t j _ H).
Qed.

Definition cutb (t : bytes) (k : nat) : bool := match ptop (t ++ 0 :: repeat 0 k) with Ok _ => false | Err _ => true end.
Lemma cutb_ok t k : ~ In 0 t -> (cutb t k = true <-> Vocab.cut_literal t k).
Proof.
  intro N0. pose proof (OverRead.ptop_exact t (repeat 0 k) N0) as H. rewrite repeat_length in H. rewrite <- H. unfold cutb.
  destruct (ptop (t ++ 0 :: repeat 0 k)) as [o|e] eqn:E; [split; discriminate|]. split; auto. intros _.
  assert (D : {e = EOob} + {e <> EOob}) by (decide equality). destruct D as [->|N]; auto. elim (ptop_only_oob e N _ E).
Qed.

Definition the_judge : judge := {|
  o_json := jsonb; o_cut := cutb; o_num := numb; o_str := strb; o_dec := fun t => dec (S (length t)) t; o_int := intb; o_real := realb |}.
Theorem judge_correct : correct the_judge.
Proof.
  constructor; cbn [o_json o_cut o_num o_str o_dec o_int o_real the_judge].
  - apply jsonb_ok.
  - apply cutb_ok.
  - apply numb_ok.
  - apply strb_ok.
  - intros t d. split; [apply dec_sound|]. intro H. apply dec_complete; auto.
  - apply intb_ok.
  - apply realb_ok.
Qed.
