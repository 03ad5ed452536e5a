(** Memory held and work done by programs over the beta header: Footprint.v and Work.v for
    its calls. *)
From Verif Require Import Base Spec SpecProofs PureParse Lex LexProofs Alloc AllocProofs Mem MemProofs Api Double Dom Scene ParseTop PrintFacts CopyProofs Vocab ParseFacts
  Hist HistRun HistForest HistSim HistStep HistAll HistMany HistWorld HistValid HistTree HistDocs HistJudge Leak Count Footprint Work
  Beta BetaHist BetaSim BetaCurrent BetaPlain BetaDocs BetaLeak BetaWorld.
From Verif Require OverRead.
From Coq Require Import ZifyN.

(** ** Memory *)
#[local] Hint Resolve ks_alloc ks_new ks_store ks_load ks_putNode ks_putVal ks_putZ ks_buf ks_user_free ks_parse_loop ks_stringify_loop ks_nth_node ks_copy_loop ks_adopt : keepsh.
Lemma ks_bstep fuel c E B : keepsS (bstep fuel c E B).
Proof. destruct c; cbn [bstep]; try (shp; fail). Qed.
Lemma ks_zerun fuel : forall es W, keepsS (zerun fuel es W).
Proof.
  induction es as [|e r IH]; intro W; cbn [zerun]; [apply ks_ret|]. apply ks_bind; [|intro xe; apply ks_bind; [apply IH|intro; apply ks_ret]].
  destruct e as [g c|g]; cbn [zestep]; (apply ks_bind; [|intro; apply ks_ret]); [apply ks_bstep|apply ks_release_all].
Qed.
Theorem zfew_blocks fuel es rs W s A l : zerun fuel es zworld0 init = Ok ((rs, W), s) -> NoDup l -> (forall b, In b l -> owns s A b) -> lenN l <= 20.
Proof. intro H. apply blocks_few. exact (ks_zerun fuel es zworld0 init _ _ shaped_init H). Qed.
Theorem zfrugal jd es rs W Ks : correct jd -> zwrun jd es zrstart = Some (rs, (W, Ks)) ->
  forall fuel, (zwmost jd es zrstart <= fuel)%nat -> exists Es B s, zerun fuel es zworld0 init = Ok ((rs, (Es, B)), s) /\
    forall g k A u, nth_error (ea (Es g)) k = Some A -> nth_error (ru (wr W g)) k = Some u -> frugal s A u.
Proof.
  intros J H fuel Hf. destruct (zmany_most jd es rs W Ks J H fuel Hf) as (Es & B & s & Er & Rp). exists Es, B, s. split; auto.
  intros g k A u HA Hu. exact (represents_frugal _ _ _ _ _ _ (Rp g) (ks_zerun fuel es zworld0 init _ _ shaped_init Er) HA Hu).
Qed.

(** ** Every value was paid for *)
Lemma zgive_paid R A o x R' : zgive R A o = Some (x, R') -> paid R R'.
Proof.
  unfold zgive, paid. destruct (spend R A 48) as [R1|] eqn:Sp; [|discriminate]. apply spend_paid in Sp as [E1 E2]. unfold total in *.
  destruct o; intros [= _ <-]; unfold new_value; cbn [rn ru]; rewrite ?E1, ?E2; lia.
Qed.
Lemma zstep_paid jd c R x R' : correct jd -> (forall h w A, look R h = Some (w, A) -> ru R <> []) -> zrstep jd c R = Some (x, R') -> paid R R'.
Proof.
  intros J Hr St. assert (D : rstep jd c R = Some (x, R') -> paid R R') by (now apply step_paid).
  assert (T : forall t j, o_json jd t = Some j -> ~ In 0 t -> (values j <= length t)%nat).
  { intros t j H H0. apply (jd_json _ J) in H; auto. now apply values_text. }
  destruct c as [| | | | | | | | | | | | | | | | | |num [|] h| | | | | |[|] h| | | | | | | | | | | |]; cbn [zrstep] in St; auto; try discriminate St; clear D.
  all: unfold paid.
  all: repeat match type of St with
    | (let _ := _ in _) = _ => cbv zeta in St
    | zgive _ _ _ = Some _ => fail 1
    | match ?k with _ => _ end = _ => let E := fresh "E" in destruct k eqn:E; try discriminate St
    end.
  all: try exact (zgive_paid _ _ _ _ _ St).
  all: (try (injection St as <- <-)); unfold checked in *; paying.
  all: repeat match goal with H : _ /\ _ |- _ => destruct H end.
  all: unfold total, sealed, with_forest, with_handle, new_value, icost in *; cbn [rn ru values container] in *.
  all: try match goal with H : reads_as _ _ = Some ?j |- _ => pose proof (jcost_values j) end; cbn [snd] in *.
  all: try solve [split; lia].
  - pose proof (T _ _ E3 (before0_no0 _)) as V. unfold lenN in *. generalize dependent (pcopy k t (before0 (pbuf k t pad))). intros; split; lia.
  - match goal with H : match read ?a ?b ?c with _ => _ end = Some _ |- _ => destruct (read a b c); [|discriminate]; injection H as <- end. cbn [rn ru]. split; lia.
  - match goal with H : match read ?a ?b ?c with _ => _ end = Some _ |- _ => destruct (read a b c); [|discriminate]; injection H as <- end. cbn [rn ru]. split; lia.
Qed.
Lemma recall_paid R K h A n o c put x R' K' : recall R K h A n o c put = Some (x, (R', K')) -> paid R R'.
Proof.
  unfold recall, paid. destruct c; [intros [= _ <- _]; split; lia|]. destruct o; [|discriminate]. destruct (spend R A n) as [R1|] eqn:Sp; [|discriminate].
  apply spend_paid in Sp as [E1 E2]. intros [= _ <- _]. lia.
Qed.
Lemma bstep_paid jd c R K x R' K' : correct jd -> (forall h w A, look R h = Some (w, A) -> ru R <> []) -> brstep jd c (R, K) = Some (x, (R', K')) -> paid R R'.
Proof.
  intros J Hr St. destruct (caching c) eqn:Ec.
  - assert (Id : paid R R) by (split; lia).
    destruct c as [| | | | | | | | | | | | | | | | | |num [|] h| | | | | |[|] h| | | | | | | | | | | |]; try discriminate Ec; cbn [brstep] in St.
    all: repeat match type of St with
      | recall _ _ _ _ _ _ _ _ = Some _ => fail 1
      | match ?k with _ => _ end = _ => let E := fresh "E" in destruct k eqn:E; try discriminate St
      end.
    all: try (exact (recall_paid _ _ _ _ _ _ _ _ _ _ _ St)).
    all: injection St as <- <- <-; auto. paying. unfold paid. split; lia.
  - rewrite brstep_plain in St by exact Ec. destruct (zrstep jd c R) as [[x' R3]|] eqn:Ez; [|discriminate]. injection St as -> -> _. eapply zstep_paid; eauto.
Qed.

(** ** Programs *)
Lemma bmost_max jd cs : forall RK rs RK', brrun jd cs RK = Some (rs, RK') -> forall b,
  (forall cs1 c cs2 r1 RK1, cs = cs1 ++ c :: cs2 -> brrun jd cs1 RK = Some (r1, RK1) -> (passes c (fst RK1) <= b)%nat) -> (bmost jd cs RK <= b)%nat.
Proof.
  induction cs as [|c cs IH]; intros RK rs RK' H b K; cbn [bmost brrun] in *; [apply Nat.le_0_l|].
  destruct (brstep jd c RK) as [[x RK1]|] eqn:E; [|discriminate]. destruct (brrun jd cs RK1) as [[xs RK2]|] eqn:E2; [|discriminate].
  apply Nat.max_lub; [apply (K [] c cs [] RK); auto|]. apply (IH _ _ _ E2). intros cs1 c1 cs2 r1 Ra -> Hr. apply (K (c :: cs1) c1 cs2 (x :: r1) Ra); auto. cbn [brrun]. now rewrite E, Hr.
Qed.
Lemma brrun_split jd p q RK rs RK' : brrun jd (p ++ q) RK = Some (rs, RK') ->
  exists r1 RK1 r2, brrun jd p RK = Some (r1, RK1) /\ brrun jd q RK1 = Some (r2, RK') /\ rs = r1 ++ r2.
Proof.
  rewrite brrun_app. destruct (brrun jd p RK) as [[ys RK1]|]; [|discriminate]. destruct (brrun jd q RK1) as [[zs RK2]|] eqn:E; [|discriminate].
  intros [= <- <-]. eauto 6.
Qed.
Lemma brun_paid jd : correct jd -> forall cs rs R K, brrun jd cs (rstart, []) = Some (rs, (R, K)) -> forall cs' rs' R' K', brrun jd cs' (R, K) = Some (rs', (R', K')) -> paid R R'.
Proof.
  intros J cs rs R K H cs'. induction cs' as [|c cs' IH] using rev_ind; intros rs' R' K' H'; [injection H' as <- <- <-; split; lia|].
  destruct (brrun_split _ _ _ _ _ _ H') as (r1 & [R1 K1] & r2 & E1 & E2 & _). destruct (IH _ _ _ E1) as (L1 & L2). cbn [brrun] in E2.
  destruct (brstep jd c (R1, K1)) as [[x [R2 K2]]|] eqn:E; [|discriminate]. injection E2 as _ <- <-.
  assert (H1 : brrun jd (cs ++ cs') (rstart, []) = Some (rs ++ r1, (R1, K1))) by (rewrite brrun_app, H, E1; reflexivity).
  destruct (bprogram_most jd J _ _ _ _ H1 _ (le_n _)) as (En & B & s & _ & nm & F & S).
  destruct (bstep_paid jd c R1 K1 x R2 K2 J) as (L3 & L4); auto; [|split; lia]. intros h w A. eapply sim_ru; eauto.
Qed.
Theorem bwork_values jd cs rs R K : correct jd -> brrun jd cs (rstart, []) = Some (rs, (R, K)) -> (bmost jd cs (rstart, []) <= 3 * N.to_nat (rn R))%nat.
Proof.
  intros J H. apply (bmost_max jd cs _ rs _ H). intros cs1 c cs2 r1 [R1 K1] -> H1. cbn [fst].
  pose proof (passes_few c R1 (beta_docs jd _ _ _ _ J H1)) as P. destruct (brrun_split _ _ _ _ _ _ H) as (r1' & [R1' K1'] & r2 & E1 & E2 & _).
  assert (R1' = R1) by congruence. subst. destruct (brun_paid jd J _ _ _ _ E1 _ _ _ _ E2) as (L & _). lia.
Qed.
Theorem bwork_memory jd cs rs R K : correct jd -> brrun jd cs (rstart, []) = Some (rs, (R, K)) ->
  forall fuel, total R <= 24 * N.of_nat fuel -> exists E B s, brun fuel cs estart bstart init = Ok (((rs, E), B), s) /\ represents R E s.
Proof.
  intros J H fuel Hf. apply (bprogram_most jd J cs rs R K H). pose proof (bwork_values jd cs rs R K J H).
  destruct (brun_paid jd J [] [] rstart [] eq_refl cs rs R K H) as (_ & L). cbn [rstart rn] in L. lia.
Qed.

(** ** One document *)
Lemma brrun_snoc jd cs RK xs R1 K1 c x R2 : brrun jd cs RK = Some (xs, (R1, K1)) -> caching c = false -> zrstep jd c R1 = Some (x, R2) ->
  brrun jd (cs ++ [c]) RK = Some (xs ++ [x], (R2, forget c x K1)).
Proof. intros E1 Ec E2. rewrite brrun_app, E1. cbn [brrun]. rewrite brstep_plain by exact Ec. now rewrite E2. Qed.
Definition bdoc_cost (n : N) : N := 48 + len_cost n + print_cost n.
Lemma bdocument_run jd t j : correct jd -> json_text t j -> bdoc_cost (lenN t) <= two30 ->
  exists R K u, brrun jd (document t) (rstart, []) = Some ([Arena 0; Value (Some 0%nat); Bool true; Text (Some (print j))], (R, K)) /\
    nth_error (ru R) 0 = Some u /\ u <= bdoc_cost (lenN t).
Proof.
  unfold bdoc_cost. intros J P Hc. pose proof (print_shorter t j P) as Lp.
  set (R0 := mkR noforest 0 [] [0]). destruct (spend_ok R0 0 0 48 eq_refl) as (R2 & S2 & G2 & N2 & H2 & U2); [vm_compute; discriminate|].
  destruct (spend_ok (new_value R2 None 0) 0 _ (len_cost (lenN t)) U2) as (R3 & S3 & G3 & N3 & H3 & U3); [lia|].
  assert (Ln : nth_error (rh (new_value R2 None 0)) 0 = Some (None, 0%nat)) by (cbn [new_value rh]; now rewrite H2).
  pose proof (json_text_no0 _ _ P) as N0.
  assert (E3 : zrstep jd (CParse PCopy 0 t []) (new_value R2 None 0) = Some (Bool true, sealed R3 None (assign R3 0 None j))).
  { cbn [zrstep]. unfold look at 1. rewrite Ln. assert (Oj : o_json jd t = Some j) by (apply (jd_json _ J); auto).
    assert (Cj : o_cut jd t 0 = false).
    { destruct (o_cut jd t 0) eqn:Bc; auto. exfalso. apply (jd_cut _ J) in Bc; auto. exact (OverRead.cut_invalid _ _ Bc N0 (ex_intro _ j P)). }
    assert (Bt : before0 (t ++ [0]) = t).
    { clear - N0. induction t as [|c t IH]; [reflexivity|]. cbn [app before0]. destruct (N.eqb_spec c 0) as [->|]; [elim N0; now left|].
      f_equal. apply IH. intro. apply N0. now right. }
    assert (Ht : has0 (t ++ [0]) = true) by (clear; induction t as [|c t IH]; [reflexivity|cbn [app has0]; rewrite IH; apply orb_true_r]).
    assert (Ft : fits (t ++ [0]) = true).
    { unfold fits. apply N.ltb_lt. rewrite lenN_app1. unfold len_cost in Hc. change two30 with 1073741824 in Hc. change two32 with 4294967296. lia. }
    cbn [pbuf]. cbv zeta. rewrite Bt, Ht, Ft. replace (Nat.sub (Nat.sub (length (t ++ [0])) (length t)) 1) with 0%nat by (rewrite app_length; cbn [length]; lia).
    rewrite Cj. cbn [andb negb pcopy]. change (lenN t + 1 + 72 * (lenN t + 2)) with (len_cost (lenN t)). now rewrite S3, Oj. }
  assert (L3 : nth_error (rh R3) 0 = Some (None, 0%nat)) by now rewrite H3.
  destruct (assign_new R3 0 None 0 j L3) as (tm & k & L4' & R4 & U4). destruct (sealed_look R3 None _ _ _ _ _ L4') as (tn & L4).
  rewrite <- (read_sealed R3 None) in R4. set (R5 := sealed R3 None (assign R3 0 None j)) in *. change (ru (assign R3 0 None j)) with (ru R5) in U4.
  assert (Q1 : brrun jd [CNewAllocator] (rstart, []) = Some ([Arena 0], (R0, []))) by reflexivity.
  assert (E2 : zrstep jd (CNewValue 0) R0 = Some (Value (Some 0%nat), new_value R2 None 0)) by (cbn [zrstep]; rewrite S2, H2; reflexivity).
  pose proof (brrun_snoc _ _ _ _ _ _ (CNewValue 0) _ _ Q1 eq_refl E2) as Q2. pose proof (brrun_snoc _ _ _ _ _ _ (CParse PCopy 0 t []) _ _ Q2 eq_refl E3) as Q3.
  pose proof (beta_docs _ _ _ _ _ J Q3) as D5. pose proof (docs_reads R5 _ _ _ D5 R4) as Er5. pose proof U3 as U3'. rewrite <- U4 in U3.
  destruct (docs_read R5 (rn R3) D5) as (j' & Er' & Jk).
  { unfold look in L4. destruct (nth_error (rh R5) 0) as [[[y|] a]|]; try discriminate. destruct (rG R5 y) eqn:E; [|discriminate]. injection L4 as <- _ _. congruence. }
  rewrite Er5 in Er'. injection Er' as <-.
  destruct (stringify_step jd R5 0 _ tn 0 j _ L4 Er5 Jk U3) as (R6 & S6 & _ & _ & _ & U6); [unfold print_cost in *; lia|].
  pose proof (brrun_snoc _ _ _ _ _ _ (CStringify 0) _ _ Q3 eq_refl S6) as Q4. eexists R6, _, _. split; [exact Q4|]. split; [exact U6|]. unfold print_cost. lia.
Qed.
Lemma document_most jd t j R K : correct jd -> json_text t j ->
  brrun jd (document t) (rstart, []) = Some ([Arena 0; Value (Some 0%nat); Bool true; Text (Some (print j))], (R, K)) ->
  (bmost jd (document t) (rstart, []) <= 2 * length t)%nat.
Proof.
  intros J P Q. apply (bmost_max _ _ _ _ _ Q). intros cs1 c cs2 r1 [R1 K1] Es H1. cbn [fst].
  destruct c; try (cbn [passes]; lia); try (exfalso; clear - Es; repeat (destruct cs1 as [|? cs1]; try discriminate); fail).
  assert (Ec : h = 0%nat /\ cs1 = [CNewAllocator; CNewValue 0; CParse PCopy 0 t []] /\ cs2 = []).
  { clear - Es. unfold document in Es. repeat (destruct cs1 as [|? cs1]; try discriminate; injection Es as ? Es; subst); auto. }
  destruct Ec as (-> & -> & ->). change (document t) with ([CNewAllocator; CNewValue 0; CParse PCopy 0 t []] ++ [CStringify 0]) in Q.
  destruct (brrun_split _ _ _ _ _ _ Q) as (r1' & RK1' & r2 & E1 & E2 & Er). assert (r1' = r1 /\ RK1' = (R1, K1)) as [-> ->] by (split; congruence). clear H1.
  cbn [passes]. unfold inside_of. pose proof (beta_docs _ _ _ _ _ J E1) as D.
  cbn [brrun brstep zrstep rstep] in E2. destruct (look R1 0) as [[[[i tn]|] A]|] eqn:L; try lia. destruct (reads_as R1 i) as [j'|] eqn:Rd; [|lia].
  destruct (docs_read R1 i D) as (j2 & Rd2 & Ok2). { apply (look_lt _ _ _ _ _ (d_shape _ D)) in L as [L _]. congruence. } assert (j2 = j') by congruence. subst j2.
  assert (V : print j' = print j).
  { unfold copy_text in E2. destruct (spend R1 A _) as [R2|]; [|discriminate]. injection E2 as <- _ _. apply (f_equal (fun l => last l Done)) in Er. rewrite last_last in Er. cbn [last option_map] in Er.
    injection Er as ->. symmetry. apply before0_id. eapply json_text_no0. now apply print_text. }
  pose proof (values_print j' Ok2) as Kv. rewrite V in Kv. pose proof (print_shorter t j P) as L'. unfold lenN in L'. lia.
Qed.
Lemma ks_brun fuel : forall cs E B, keepsS (brun fuel cs E B).
Proof.
  induction cs as [|c r IH]; intros E B; cbn [brun]; [apply ks_ret|]. apply ks_bind; [apply ks_bstep|]. intro xe. apply ks_bind; [apply IH|intro; apply ks_ret].
Qed.
Lemma bdocument_ea fuel t s x s' : brun fuel (document t) estart bstart s = Ok (x, s') -> exists A, ea (snd (fst x)) = [A].
Proof.
  unfold document. cbn [brun]. intro H. unfold bind at 1 in H. destruct (bstep fuel CNewAllocator estart bstart s) as [[xe s1]|] eqn:E1; [|discriminate].
  assert (EA : exists A, ea (snd (fst xe)) = [A]).
  { cbn [bstep] in E1. unfold BetaHist.same, bind, cstep, zj_NewAllocator, bind, ret in E1. injection E1 as <- _. cbn. eauto. }
  clear E1. destruct EA as (A & EA). exists A. revert x s' H.
  assert (G : forall cs E B, ~ In CNewAllocator cs -> gives (brun fuel cs E B) (fun re => ea (snd (fst re)) = ea E)).
  { induction cs as [|c r IH]; intros E B Nc; cbn [brun]; [now apply gi_ret|]. apply (gi_bind2 _ _ _ _ (fun xb => ea (snd (fst xb)) = ea E)).
    - apply bstep_ea. intros ->. apply Nc. now left.
    - intros xb Hx. apply (gi_bind2 _ _ _ _ (fun xb' => ea (snd (fst xb')) = ea (snd (fst xb)))); [apply IH; intro; apply Nc; now right|].
      intros rb Hr. apply gi_ret. cbn [fst snd]. congruence. }
  intros x s' H. unfold bind at 1 in H. match type of H with context[match ?m s1 with _ => _ end] => destruct (m s1) as [[re s2]|] eqn:E2 end; [|discriminate]. injection H as <- <-. cbn [fst snd].
  assert (Nc : ~ In CNewAllocator [CNewValue 0; CParse PCopy 0 t []; CStringify 0]) by (intros [K|[K|[K|[]]]]; discriminate).
  rewrite <- EA. exact (G _ (snd (fst xe)) (snd xe) Nc s1 re s2 E2).
Qed.
Theorem bdocument t j : json_text t j -> 77 * lenN t + 1245 <= two30 -> forall fuel, (2 * length t <= fuel)%nat ->
  exists E B s A l, brun fuel (document t) estart bstart init = Ok ((([Arena 0; Value (Some 0%nat); Bool true; Text (Some (print j))], E), B), s) /\
    ea E = [A] /\ blocks_of s A l /\ lenN l <= 20 /\ sizes s l <= 308 * lenN t + 4592.
Proof.
  intros P Hc fuel Hf. assert (Hc' : bdoc_cost (lenN t) <= two30) by (unfold bdoc_cost, len_cost, print_cost; lia).
  destruct (bdocument_run the_judge t j judge_correct P Hc') as (R & K & u & Q & Hu & Lu).
  pose proof (document_most _ _ _ _ _ judge_correct P Q) as Lm.
  destruct (bprogram_most _ judge_correct _ _ _ _ Q fuel (Nat.le_trans _ _ _ Lm Hf)) as (E & B & s & Ec & Rp). destruct (bdocument_ea _ _ _ _ _ Ec) as (A & EA). cbn [fst snd] in EA.
  pose proof (ks_brun fuel (document t) estart bstart init _ _ shaped_init Ec) as Sh.
  assert (HA : nth_error (ea E) 0 = Some A) by now rewrite EA. destruct (represents_frugal _ _ _ _ _ _ Rp Sh HA Hu) as (l & Bl & Kl & _). exists E, B, s, A, l. split; auto. split; auto. split; auto.
  assert (L20 : lenN l <= 20) by (apply (blocks_few s A l Sh); [apply Bl|]; intros b Hb; now apply (proj2 Bl)). split; auto. unfold bdoc_cost, len_cost, print_cost in Lu. lia.
Qed.
