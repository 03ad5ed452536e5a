(** What holds of the documents of every program: they are trees of well-formed texts, so
    that every value prints as JSON, and parsing or copying gives it back. *)
From Verif Require Import Base Spec SpecProofs PureParse Dom ParseFacts ParseTop Vocab PrintFacts Scene Mem MemProofs AllocProofs StringifyProofs CopyProofs
  Hist HistRun HistForest HistSim HistStep HistAll HistMany HistWorld HistValid HistTree.
From Verif Require OverRead.
From Coq Require Import ZifyN.

(** ** The invariant *)
Record docs_ok (R : rst) : Prop := {
  d_shape : shape (rn R) (rG R);
  d_good : good (rG R);
  d_trees : trees (rG R)
}.
Lemma represents_shape R E s : represents R E s -> shape (rn R) (rG R).
Proof. intros (nm & F & S). eapply fsim_shape; [apply (sm_fs _ _ _ _ _ S)|]. exact (i_dom _ _ (sm_inv _ _ _ _ _ S)). Qed.
Lemma docs_start : docs_ok rstart.
Proof. constructor; cbn; [constructor; unfold noforest; cbn; try discriminate; intros i H; now elim H|exact good_no|intros i H; now elim H]. Qed.

Lemma rrun_app jd : forall cs cs' R, rrun jd (cs ++ cs') R =
  match rrun jd cs R with None => None | Some (xs, R1) => match rrun jd cs' R1 with None => None | Some (ys, R2) => Some (xs ++ ys, R2) end end.
Proof.
  induction cs as [|c cs IH]; intros cs' R; cbn [app rrun]; [destruct (rrun jd cs' R) as [[? ?]|]; auto|].
  destruct (rstep jd c R) as [[x R1]|]; auto. rewrite IH. destruct (rrun jd cs R1) as [[xs R2]|]; auto. destruct (rrun jd cs' R2) as [[? ?]|]; auto.
Qed.
Lemma wrun_app jd : forall cs cs' R, wrun jd (cs ++ cs') R =
  match wrun jd cs R with None => None | Some (xs, R1) => match wrun jd cs' R1 with None => None | Some (ys, R2) => Some (xs ++ ys, R2) end end.
Proof.
  induction cs as [|c cs IH]; intros cs' R; cbn [app wrun]; [destruct (wrun jd cs' R) as [[? ?]|]; auto|].
  destruct (wstep jd c R) as [[x R1]|]; auto. rewrite IH. destruct (wrun jd cs R1) as [[xs R2]|]; auto. destruct (wrun jd cs' R2) as [[? ?]|]; auto.
Qed.
Lemma rrun_len jd : forall cs R rs R', rrun jd cs R = Some (rs, R') -> length rs = length cs.
Proof.
  induction cs as [|c cs IH]; intros R rs R' H; cbn in H; [now injection H as <- <-|]. destruct (rstep jd c R) as [[x R1]|]; [|discriminate].
  destruct (rrun jd cs R1) as [[xs R2]|] eqn:E; [|discriminate]. injection H as <- <-. cbn. now rewrite (IH _ _ _ E).
Qed.
Lemma wrun_len jd : forall cs R rs R', wrun jd cs R = Some (rs, R') -> length rs = length cs.
Proof.
  induction cs as [|c cs IH]; intros R rs R' H; cbn in H; [now injection H as <- <-|]. destruct (wstep jd c R) as [[x R1]|]; [|discriminate].
  destruct (wrun jd cs R1) as [[xs R2]|] eqn:E; [|discriminate]. injection H as <- <-. cbn. now rewrite (IH _ _ _ E).
Qed.

Lemma charge_G R n : rG (charge R n) = rG R /\ rn (charge R n) = rn R.
Proof. unfold charge. destruct (scratch R n) eqn:E; auto. now apply scratch_G in E. Qed.
Lemma docs_world jd es rs W : correct jd -> wrun jd es wstart = Some (rs, W) -> forall g, docs_ok (wr W g).
Proof.
  intros J. revert rs W. induction es as [|e es IH] using rev_ind; intros rs W H g.
  - injection H as <- <-. exact docs_start.
  - pose proof H as H0. rewrite wrun_app in H. destruct (wrun jd es wstart) as [[xs W1]|] eqn:E1; [|discriminate]. cbn [wrun] in H.
    destruct (wstep jd e W1) as [[x W2]|] eqn:E2; [|discriminate]. injection H as <- <-. specialize (IH xs W1 eq_refl).
    destruct (many jd (es ++ [e]) _ _ J H0) as (f0 & K). destruct (K f0 (le_n _)) as (Es & s & _ & Rep). 
    assert (Sh : shape (rn (wr W2 g)) (rG (wr W2 g))) by (eapply represents_shape; apply Rep). clear K H0 Rep.
    enough (GT : good (rG (wr W2 g)) /\ trees (rG (wr W2 g))) by (constructor; tauto).
    destruct e as [j c|j]; cbn [wstep] in E2.
    + destruct (rstep jd c (wr W1 j)) as [[y R']|] eqn:Er; [|discriminate]. destruct (IH j) as [S1 G1 T1].
      assert (P : good (rG R') /\ trees (rG R')) by (split; [eapply rstep_good; eauto|eapply rstep_trees; eauto]).
      destruct (cneed c =? 0); [injection E2 as <- <-|destruct (negb _ && _); [|discriminate]; injection E2 as <- <-]; cbn [wr]; unfold updn;
        (destruct (Nat.eqb g j); [auto|]).
      * destruct (IH g); auto.
      * destruct (inb g (wc W1)); [|destruct (IH g); auto]. destruct (charge_G (wr W1 g) (cneed c)) as [-> _]. destruct (IH g); auto.
    + injection E2 as <- <-. cbn [wr]. unfold updn. destruct (Nat.eqb g j); [|destruct (IH g); auto]. destruct docs_start; auto.
Qed.
Lemma docs_program jd cs rs R : correct jd -> rrun jd cs rstart = Some (rs, R) -> docs_ok R.
Proof.
  intros J. revert rs R. induction cs as [|c cs IH] using rev_ind; intros rs R H.
  - injection H as <- <-. exact docs_start.
  - pose proof H as H0. rewrite rrun_app in H. destruct (rrun jd cs rstart) as [[xs R1]|] eqn:E1; [|discriminate]. cbn [rrun] in H.
    destruct (rstep jd c R1) as [[x R2]|] eqn:E2; [|discriminate]. injection H as <- <-. destruct (IH xs R1 eq_refl) as [S1 G1 T1].
    destruct (program jd (cs ++ [c]) _ _ J H0) as (f0 & K). destruct (K f0 (le_n _)) as (E & s & _ & Rep).
    constructor; [eapply represents_shape; eauto|eapply rstep_good; eauto|eapply rstep_trees; eauto].
Qed.

(** ** Every value can be read *)
Lemma docs_read R i : docs_ok R -> rG R i <> None -> exists j, reads_as R i = Some j /\ json_ok j.
Proof.
  intros [S G T] H. destruct (tr_read (rG R) (rn R) i (sh_lt _ _ S) (T i H)) as (j & E). exists j. split; auto. eapply read_good; eauto.
Qed.

(** ** Stringify answers JSON *)
Lemma stringify_answer jd R h x R' : docs_ok R -> rstep jd (CStringify h) R = Some (x, R') -> exists t, x = Text (Some t) /\ (t = [] \/ exists j, json_text t j).
Proof.
  intros D H. cbn [rstep] in H. destruct (look R h) as [[[[i t]|] A]|] eqn:Lk; [| |discriminate].
  - destruct (reads_as R i) as [j|] eqn:Er; [|discriminate]. unfold copy_text in H. destruct (spend R A _); [|discriminate]. injection H as <- <-. cbn.
    assert (Jk : json_ok j) by (eapply read_good; [apply (d_good _ D)|exact Er]). pose proof (print_text j Jk) as P.
    rewrite before0_id by (eapply json_text_no0; eauto). exists (print j). eauto.
  - injection H as <- <-. eauto.
Qed.
Theorem texts_valid jd es rs W : correct jd -> wrun jd es wstart = Some (rs, W) ->
  exists f0, forall fuel, (f0 <= fuel)%nat -> exists Es s, erun fuel es wenv0 init = Ok ((rs, Es), s) /\
    forall n g h, nth_error es n = Some (Do g (CStringify h)) ->
      exists t, nth_error rs n = Some (Text (Some t)) /\ (t = [] \/ exists j, json_text t j).
Proof.
  intros J H. destruct (many jd es rs W J H) as (f0 & K). exists f0. intros fuel Hf. destruct (K fuel Hf) as (Es & s & Er & _).
  exists Es, s. split; auto. clear K Er. intros n g h Hn. apply nth_error_split in Hn as (l & r & -> & Ln). subst n.
  rewrite wrun_app in H. destruct (wrun jd l wstart) as [[xs W1]|] eqn:E1; [|discriminate]. pose proof (docs_world _ _ _ _ J E1 g) as D.
  cbn [wrun] in H. destruct (wstep jd (Do g (CStringify h)) W1) as [[x W2]|] eqn:E2; [|discriminate].
  destruct (wrun jd r W2) as [[ys W3]|]; [|discriminate]. injection H as <- <-. rewrite <- (wrun_len _ _ _ _ _ E1), nth_error_app2, Nat.sub_diag by lia. cbn [nth_error].
  cbn [wstep] in E2. destruct (rstep jd (CStringify h) (wr W1 g)) as [[y R']|] eqn:Es'; [|discriminate].
  destruct (stringify_answer _ _ _ _ _ D Es') as (t & -> & K). exists t. split; auto. cbn [cneed N.eqb] in E2. now injection E2 as <- _.
Qed.

(** ** What is planted can be read *)
Definition rv (k : nat) (G : forest) (v : nval) : option json :=
  match v with
  | NNull => Some JNull | NBool b => Some (JBool b) | NNum b => Some (JNum b) | NStr b => Some (JStr b)
  | NCont ob kids => option_map (container ob) (mapo (fun c => match G c, read k G c with Some tc, Some j => Some (tkey tc, j) | _, _ => None end) kids)
  end.
Lemma read_rv k G i : read (Datatypes.S k) G i = match G i with Some t => rv k G (tvalue t) | None => None end.
Proof. cbn [read]. destruct (G i) as [t|]; auto. Qed.
Lemma mapo_mono {X Y} (f g : X -> option Y) l r : (forall x y, In x l -> f x = Some y -> g x = Some y) -> mapo f l = Some r -> mapo g l = Some r.
Proof.
  revert r. induction l as [|x l IH]; cbn; intros r H E; auto. destruct (f x) as [y|] eqn:Ef; [|discriminate]. destruct (mapo f l) as [s|]; [|discriminate].
  injection E as <-. rewrite (H x y (or_introl eq_refl) Ef). rewrite (IH s); auto.
Qed.
Lemma read_mono G : forall k k' i j, (k <= k')%nat -> read k G i = Some j -> read k' G i = Some j.
Proof.
  induction k as [|k IH]; intros k' i j Hk E; [discriminate|]. destruct k' as [|k']; [lia|]. rewrite read_rv in *. destruct (G i) as [t|]; [|discriminate].
  destruct (tvalue t) as [| | | |ob kids]; auto. cbn [rv] in *. destruct (mapo _ kids) as [items|] eqn:Em in E; [|discriminate].
  rewrite (mapo_mono _ (fun c => match G c, read k' G c with Some tc, Some j => Some (tkey tc, j) | _, _ => None end) _ _) with (2 := Em); auto.
  intros c y _ Hc. cbn beta in *. destruct (G c); [|discriminate Hc]. destruct (read k G c) as [jc|] eqn:Ec; [|discriminate Hc].
  rewrite (IH k' c jc); auto. lia.
Qed.
Definition kv (G : forest) (i : N) : option (option bytes * nval) := option_map (fun t => (tkey t, tvalue t)) (G i).
Definition alike (h G : forest) : Prop := forall k, h k <> None -> kv G k = kv h k.
Lemma plant_reads : forall j i n, let '(v, h, _) := plant i j n in forall G, alike h G -> exists k, rv k G v = Some j.
Proof.
  assert (L : forall (items : list (option bytes * json)) i n,
    Forall (fun kj => forall i n, let '(v, h, _) := plant i (snd kj) n in forall G, alike h G -> exists k, rv k G v = Some (snd kj)) items ->
    let '(ks, h, _) := plantL i items n in forall G, alike h G -> exists k,
      mapo (fun c => match G c, read k G c with Some tc, Some j => Some (tkey tc, j) | _, _ => None end) ks = Some items).
  { induction items as [|[k x] r IH]; intros i n H; cbn [plantL]; [intros; now exists 0%nat|].
    inversion H as [|? ? Hx Hr]; subst. cbn [fst snd] in *. specialize (Hx n (n + 1)). pose proof (plant_inside x n (n + 1)) as In1.
    destruct (plant n x (n + 1)) as [[v h1] n1]. specialize (IH i n1 Hr). pose proof (plantL_inside r i n1) as In2.
    destruct (plantL i r n1) as [[ks h2] n2]. destruct In1 as (A1 & A2 & _), In2 as (B1 & B2 & _). intros G Lk.
    set (g := put (over h1 h2) n _) in Lk.
    assert (L1 : alike h1 G).
    { intros y Hy. assert (Hy' := Hy). apply A2 in Hy'. assert (E : g y = h1 y).
      { unfold g, put. rewrite (proj2 (N.eqb_neq y n)) by lia. unfold over. destruct (h1 y); [auto|now elim Hy]. }
      rewrite Lk by now rewrite E. unfold kv. now rewrite E. }
    assert (L2 : alike h2 G).
    { intros y Hy. assert (Hy' := Hy). apply B2 in Hy'. assert (E : g y = h2 y).
      { unfold g, put. rewrite (proj2 (N.eqb_neq y n)) by lia. unfold over. destruct (h1 y) eqn:E1; auto.
        assert (K : h1 y <> None) by congruence. apply A2 in K. lia. }
      rewrite Lk by now rewrite E. unfold kv. now rewrite E. }
    destruct (Hx G L1) as (k1 & K1). destruct (IH G L2) as (k2 & K2). exists (Nat.max (Datatypes.S k1) k2). cbn [mapo].
    assert (En : kv G n = Some (k, v)).
    { rewrite Lk; unfold kv, g, put; rewrite N.eqb_refl; [reflexivity|discriminate]. }
    unfold kv in En. destruct (G n) as [tn|] eqn:EG; [|discriminate]. cbn in En. injection En as En1 En2.
    rewrite (read_mono G (Datatypes.S k1) _ n x); [|lia|now rewrite read_rv, EG, En2].
    match goal with |- context [mapo ?f ks] => rewrite (mapo_mono _ f _ _) with (2 := K2); [now rewrite En1|] end.
    intros c y _ Hc. cbn beta in *. destruct (G c); [|discriminate Hc]. destruct (read k2 G c) as [jc|] eqn:Ec; [|discriminate Hc].
    rewrite (read_mono G k2 _ c jc); auto. lia. }
  induction j as [|b|t|b|l IH|l IH] using json_ind2; intros i n; try (cbn; intros; now exists 0%nat).
  - rewrite plant_arr. match goal with |- context [plantL ?a ?b ?c] => specialize (L b a c); destruct (plantL a b c) as [[ks h] n'] end.
    intros G Lk. destruct L with (2 := Lk) as (k & K).
    + apply Forall_forall. intros kj Hk. apply in_map_iff in Hk as (x & <- & Hx). cbn [fst snd]. rewrite Forall_forall in IH. intros. now apply IH.
    + exists k. cbn [rv]. rewrite K. cbn. unfold container. rewrite map_map. cbn. now rewrite map_id.
  - rewrite plant_obj. match goal with |- context [plantL ?a ?b ?c] => specialize (L b a c); destruct (plantL a b c) as [[ks h] n'] end.
    intros G Lk. destruct L with (2 := Lk) as (k & K).
    + apply Forall_forall. intros kj Hk. apply in_map_iff in Hk as (x & <- & Hx). cbn [fst snd]. rewrite Forall_forall in IH. intros. now apply (IH x Hx).
    + exists k. cbn [rv]. rewrite K. cbn. unfold container. rewrite map_map. cbn. do 2 f_equal. rewrite <- (map_id l) at 2. apply map_ext. now intros [? ?].
Qed.

Lemma read_fun G k k' i j j' : read k G i = Some j -> read k' G i = Some j' -> j = j'.
Proof.
  intros E E'. destruct (Nat.le_ge_cases k k') as [K|K]; [apply (read_mono _ _ _ _ _ K) in E|apply (read_mono _ _ _ _ _ K) in E']; congruence.
Qed.
Lemma docs_reads R i j k : docs_ok R -> read k (rG R) i = Some j -> reads_as R i = Some j.
Proof.
  intros D E. destruct (docs_read R i D) as (j' & E' & _).
  - intro K. destruct k; [discriminate|]. rewrite read_rv, K in E. discriminate.
  - rewrite E'. f_equal. symmetry. eapply read_fun; eauto.
Qed.
Lemma grafted G i v g n n' t j : inside v g n n' -> (forall G, alike g G -> exists k, rv k G v = Some j) -> i < n -> tvalue t = v ->
  exists k, read k (put (over g G) i t) i = Some j.
Proof.
  intros (_ & I2 & _) P Hi Ht. destruct (P (put (over g G) i t)) as (k & K).
  - intros y Hy. unfold kv, put. destruct (N.eqb_spec y i) as [->|_]; [apply I2 in Hy; lia|]. unfold over. destruct (g y); [auto|now elim Hy].
  - exists (Datatypes.S k). rewrite read_rv. replace (put (over g G) i t i) with (Some t) by (unfold put; now rewrite N.eqb_refl). now rewrite Ht.
Qed.
Lemma assign_new R h o A j : nth_error (rh R) h = Some (o, A) ->
  exists t k, look (assign R h None j) h = Some (Some (rn R, t), A) /\ read k (rG (assign R h None j)) (rn R) = Some j /\ ru (assign R h None j) = ru R.
Proof.
  intro Hh. unfold assign. pose proof (plant_inside j (rn R) (rn R + 1)) as P1. pose proof (plant_reads j (rn R) (rn R + 1)) as P2.
  destruct (plant (rn R) j (rn R + 1)) as [[v g] n']. unfold with_handle, look. cbn [rG rh ru rn]. rewrite Hh, nth_setn, Nat.eqb_refl, Hh. cbn [option_map].
  destruct (grafted (rG R) (rn R) v g _ _ (mkT None v None true true false) j P1 P2) as (k & K); auto; [lia|].
  eexists _, k. split; [|split; [exact K|auto]]. unfold put at 1. now rewrite N.eqb_refl.
Qed.
Lemma read_sealed R0 w R : forall k i, read k (rG (sealed R0 w R)) i = read k (rG R) i.
Proof.
  assert (K : forall i, rG (sealed R0 w R) i = rG R i \/ rG (sealed R0 w R) i = option_map (fun t => mkT (tkey t) (tvalue t) (tpar t) (tprev t) (tend t) true) (rG R i)).
  { intro i. cbn [sealed with_forest rG]. destruct (_ || _); auto. }
  induction k as [|k IH]; intro i; [reflexivity|]. rewrite !read_rv.
  assert (Q : forall v, rv k (rG (sealed R0 w R)) v = rv k (rG R) v).
  { intros [| | | |ob kids]; try reflexivity. cbn [rv]. f_equal. induction kids as [|c r IHr]; [reflexivity|]. cbn [mapo]. rewrite IHr, IH.
    destruct (K c) as [->| ->]; [reflexivity|]. destruct (rG R c); reflexivity. }
  destruct (K i) as [->| ->]; [|destruct (rG R i); [cbn [option_map tvalue]|reflexivity]]; destruct (rG R i); auto.
Qed.
Lemma sealed_look R0 w R h i t A : look R h = Some (Some (i, t), A) -> exists t', look (sealed R0 w R) h = Some (Some (i, t'), A).
Proof.
  unfold look. cbn [sealed with_forest rh]. destruct (nth_error (rh R) h) as [[[y|] k]|]; try discriminate. destruct (rG R y) as [t0|] eqn:E; [|discriminate].
  intro H. injection H as <- <- <-. cbn [sealed with_forest rG]. destruct (_ || _); rewrite E; cbn [option_map]; eauto.
Qed.
Lemma duplicate_new R t j : rh (duplicate R t j) = rh R /\ ru (duplicate R t j) = ru R /\
  exists tn k, rG (duplicate R t j) (rn R) = Some tn /\ tkey tn = tkey t /\ read k (rG (duplicate R t j)) (rn R) = Some j.
Proof.
  unfold duplicate. pose proof (plant_inside j (rn R) (rn R + 1)) as P1. pose proof (plant_reads j (rn R) (rn R + 1)) as P2.
  destruct (plant (rn R) j (rn R + 1)) as [[v g] n']. cbn [rG rh ru rn]. split; auto. split; auto.
  destruct (grafted (rG R) (rn R) v g _ _ (mkT (tkey t) v None true true false) j P1 P2) as (k & K); auto; [lia|].
  eexists _, k. split; [unfold put at 1; now rewrite N.eqb_refl|]. split; [reflexivity|exact K].
Qed.
Lemma spend_ok R A u n : nth_error (ru R) A = Some u -> u + n <= two30 ->
  exists R1, spend R A n = Some R1 /\ rG R1 = rG R /\ rn R1 = rn R /\ rh R1 = rh R /\ nth_error (ru R1) A = Some (u + n).
Proof.
  intros H L. unfold spend. rewrite H. apply N.leb_le in L. rewrite L. eexists. split; [reflexivity|]. cbn. repeat (split; [reflexivity|]).
  now rewrite nth_setn, Nat.eqb_refl, H.
Qed.
Lemma look_new R o A : nth_error (rh (new_value R o A)) (length (rh R)) = Some (o, A).
Proof. cbn [new_value rh]. now rewrite nth_error_app2, Nat.sub_diag by lia. Qed.
Lemma rrun_snoc jd cs R xs R1 c x R2 : rrun jd cs R = Some (xs, R1) -> rstep jd c R1 = Some (x, R2) -> rrun jd (cs ++ [c]) R = Some (xs ++ [x], R2).
Proof. intros E1 E2. rewrite rrun_app, E1. cbn [rrun]. now rewrite E2. Qed.
Lemma stringify_step jd R h i t A j u : look R h = Some (Some (i, t), A) -> reads_as R i = Some j -> json_ok j ->
  nth_error (ru R) A = Some u -> u + print_cost (lenN (print j)) <= two30 ->
  exists R1, rstep jd (CStringify h) R = Some (Text (Some (print j)), R1) /\
    rG R1 = rG R /\ rn R1 = rn R /\ rh R1 = rh R /\ nth_error (ru R1) A = Some (u + print_cost (lenN (print j))).
Proof.
  intros Lk Er Jk Hu Hn. cbn [rstep]. rewrite Lk, Er. unfold copy_text. destruct (spend_ok R A u _ Hu Hn) as (R1 & E1 & E).
  exists R1. split; auto. rewrite E1. cbn [option_map]. rewrite before0_id; auto. eapply json_text_no0, print_text, Jk.
Qed.

Lemma has0_in t : has0 t = true -> In 0 t.
Proof. induction t as [|c t IH]; [discriminate|]. cbn. intro E. apply orb_prop in E as [E|E]; [left; now apply N.eqb_eq in E|right; auto]. Qed.

(** A value object of [R] that has a value. *)
Definition full (R : rst) (h A : nat) : Prop := exists i t, look R h = Some (Some (i, t), A).

Definition again_cost (n : N) : N := 2 * print_cost n + len_cost n + 16.
Lemma again_covered jd cs rs R h A : correct jd -> rrun jd cs rstart = Some (rs, R) -> full R h A ->
  exists t j, json_text t j /\ forall u, nth_error (ru R) A = Some u -> u + again_cost (lenN t) <= two30 ->
    exists R', rrun jd (cs ++ [CStringify h; CNewValue A; CParse PCopy (length (rh R)) t []; CStringify (length (rh R))]) rstart =
      Some (rs ++ [Text (Some t); Value (Some (length (rh R))); Bool true; Text (Some t)], R').
Proof.
  intros J Hr (i & ti & Lk). pose proof (docs_program _ _ _ _ J Hr) as D.
  assert (Gi : rG R i <> None).
  { unfold look in Lk. destruct (nth_error (rh R) h) as [[[y|] k]|]; try discriminate. destruct (rG R y) eqn:E; [|discriminate]. congruence. }
  destruct (docs_read R i D Gi) as (j & Er & Jk). exists (print j), j. pose proof (print_text j Jk) as P. split; auto.
  intros u Hu Hc. unfold again_cost in Hc.
  destruct (stringify_step jd R h i ti A j u Lk Er Jk Hu) as (R1 & S1 & G1 & N1 & H1 & U1); [lia|].
  destruct (spend_ok R1 A _ 16 U1) as (R2 & S2 & G2 & N2 & H2 & U2); [lia|].
  destruct (spend_ok (new_value R2 None A) A _ (len_cost (lenN (print j))) U2) as (R3 & S3 & G3 & N3 & H3 & U3); [lia|].
  assert (Ln : nth_error (rh (new_value R2 None A)) (length (rh R)) = Some (None, A)) by (rewrite <- H1, <- H2; apply look_new).
  assert (E3 : rstep jd (CParse PCopy (length (rh R)) (print j) []) (new_value R2 None A) = Some (Bool true, sealed R3 None (assign R3 (length (rh R)) None j))).
  { cbn [rstep]. unfold look at 1. rewrite Ln. assert (Oj : o_json jd (print j) = Some j) by (apply (jd_json _ J); auto; eapply json_text_no0; eauto).
    assert (Cj : o_cut jd (print j) 0 = false).
    { destruct (o_cut jd (print j) 0) eqn:Bc; auto. exfalso. pose proof (json_text_no0 _ _ P) as N0. apply (jd_cut _ J) in Bc; auto. exact (OverRead.cut_invalid _ _ Bc N0 (ex_intro _ j P)). }
    rewrite Oj, Cj. cbn [negb]. assert (Oc : ok_c (print j) = true).
    { unfold ok_c. destruct (has0 (print j)) eqn:E; auto. exfalso. apply (json_text_no0 _ _ P). now apply has0_in. }
    assert (Ft : fits (print j ++ [0]) = true).
    { unfold fits. apply N.ltb_lt. rewrite lenN_app1. unfold len_cost in Hc. change two30 with 1073741824 in Hc. change two32 with 4294967296. lia. }
    rewrite Oc, Ft. cbn [andb]. now rewrite S3. }
  assert (L3 : nth_error (rh R3) (length (rh R)) = Some (None, A)) by now rewrite H3.
  destruct (assign_new R3 (length (rh R)) None A j L3) as (tm & k & L4' & R4 & U4). destruct (sealed_look R3 None _ _ _ _ _ L4') as (tn & L4).
  rewrite <- (read_sealed R3 None) in R4. set (R5 := sealed R3 None (assign R3 (length (rh R)) None j)) in *. change (ru (assign R3 (length (rh R)) None j)) with (ru R5) in U4.
  pose proof (rrun_snoc _ _ _ _ _ _ _ _ Hr S1) as Q1.
  assert (E2 : rstep jd (CNewValue A) R1 = Some (Value (Some (length (rh R))), new_value R2 None A)) by (cbn [rstep]; now rewrite S2, H2, H1).
  pose proof (rrun_snoc _ _ _ _ _ _ _ _ Q1 E2) as Q2. pose proof (rrun_snoc _ _ _ _ _ _ _ _ Q2 E3) as Q3.
  pose proof (docs_program _ _ _ _ J Q3) as D5. pose proof (docs_reads R5 _ _ _ D5 R4) as Er5. rewrite <- U4 in U3.
  destruct (stringify_step jd R5 (length (rh R)) _ tn A j _ L4 Er5 Jk U3) as (R6 & S6 & _); [lia|].
  pose proof (rrun_snoc _ _ _ _ _ _ _ _ Q3 S6) as Q4. exists R6. rewrite <- !app_assoc in Q4. exact Q4.
Qed.
Theorem printed_again jd cs rs R h A : correct jd -> rrun jd cs rstart = Some (rs, R) -> full R h A ->
  exists t j, json_text t j /\ forall u, nth_error (ru R) A = Some u -> u + again_cost (lenN t) <= two30 ->
    exists f0, forall fuel, (f0 <= fuel)%nat -> exists E s,
      crun fuel (cs ++ [CStringify h; CNewValue A; CParse PCopy (length (rh R)) t []; CStringify (length (rh R))]) estart init =
      Ok ((rs ++ [Text (Some t); Value (Some (length (rh R))); Bool true; Text (Some t)], E), s).
Proof.
  intros J Hr Hf. destruct (again_covered _ _ _ _ _ _ J Hr Hf) as (t & j & P & K). exists t, j. split; auto. intros u Hu Hc.
  destruct (K u Hu Hc) as (R' & Q). destruct (program _ _ _ _ J Q) as (f0 & Z). exists f0. intros fuel Hfu. destruct (Z fuel Hfu) as (E & s & Ec & _). eauto.
Qed.

(** A copy prints like the original and has its key. *)
Definition key_of (R : rst) (h : nat) : option bytes := match look R h with Some (Some (_, t), _) => tkey t | _ => None end.
Theorem copied_again jd cs rs R h A : correct jd -> rrun jd cs rstart = Some (rs, R) -> full R h A ->
  exists t j, json_text t j /\ forall u, nth_error (ru R) A = Some u -> u + 2 * print_cost (lenN t) + 88 + icost (key_of R h, j) <= two30 ->
    exists f0, forall fuel, (f0 <= fuel)%nat -> exists E s,
      crun fuel (cs ++ [CStringify h; CCopy h; CStringify (length (rh R)); CGetKey true (length (rh R))]) estart init =
      Ok ((rs ++ [Text (Some t); Value (Some (length (rh R))); Text (Some t); Text (key_of R h)], E), s).
Proof.
  intros J Hr (i & ti & Lk). pose proof (docs_program _ _ _ _ J Hr) as D.
  assert (Gi : rG R i <> None).
  { unfold look in Lk. destruct (nth_error (rh R) h) as [[[y|] k]|]; try discriminate. destruct (rG R y) eqn:E; [|discriminate]. congruence. }
  destruct (docs_read R i D Gi) as (j & Er & Jk). exists (print j), j. pose proof (print_text j Jk) as P. split; auto.
  assert (Ek : key_of R h = tkey ti) by (unfold key_of; now rewrite Lk). rewrite Ek. intros u Hu Hc.
  destruct (stringify_step jd R h i ti A j u Lk Er Jk Hu) as (R1 & S1 & G1 & N1 & H1 & U1); [lia|].
  destruct (spend_ok R1 A _ (88 + icost (tkey ti, j)) U1) as (R2 & S2 & G2 & N2 & H2 & U2); [lia|].
  destruct (duplicate_new R2 ti j) as (Dh & Du & tn & k & Dt & Dk & Dr). set (R3 := new_value (duplicate R2 ti j) (Some (rn R2)) A).
  assert (E2 : rstep jd (CCopy h) R1 = Some (Value (Some (length (rh R))), R3)).
  { cbn [rstep]. assert (L1 : look R1 h = Some (Some (i, ti), A)) by (unfold look in *; now rewrite H1, G1). rewrite L1. unfold reads_as in *. rewrite G1, N1, Er, S2, H2, H1. reflexivity. }
  pose proof (rrun_snoc _ _ _ _ _ _ _ _ Hr S1) as Q1. pose proof (rrun_snoc _ _ _ _ _ _ _ _ Q1 E2) as Q2. pose proof (docs_program _ _ _ _ J Q2) as D3.
  assert (L3 : look R3 (length (rh R)) = Some (Some (rn R2, tn), A)).
  { unfold look. replace (nth_error (rh R3) (length (rh R))) with (Some (Some (rn R2), A)).
    - change (rG R3) with (rG (duplicate R2 ti j)). now rewrite Dt.
    - symmetry. rewrite <- H1, <- H2, <- Dh. apply look_new. }
  assert (U3 : nth_error (ru R3) A = Some (u + print_cost (lenN (print j)) + (88 + icost (tkey ti, j)))) by (cbn [R3 new_value ru]; now rewrite Du).
  assert (Er3 : reads_as R3 (rn R2) = Some j) by (apply (docs_reads R3 _ _ k D3); exact Dr).
  destruct (stringify_step jd R3 (length (rh R)) _ tn A j _ L3 Er3 Jk U3) as (R4 & S4 & G4 & N4 & H4 & _); [lia|].
  pose proof (rrun_snoc _ _ _ _ _ _ _ _ Q2 S4) as Q3.
  assert (E4 : rstep jd (CGetKey true (length (rh R))) R4 = Some (Text (tkey ti), R4)).
  { cbn [rstep]. assert (L4 : look R4 (length (rh R)) = Some (Some (rn R2, tn), A)) by (unfold look in *; now rewrite H4, G4). rewrite L4. now rewrite Dk. }
  pose proof (rrun_snoc _ _ _ _ _ _ _ _ Q3 E4) as Q4. rewrite <- !app_assoc in Q4.
  destruct (program _ _ _ _ J Q4) as (f0 & Z). exists f0. intros fuel Hfu. destruct (Z fuel Hfu) as (E & s & Ec & _). eauto.
Qed.
