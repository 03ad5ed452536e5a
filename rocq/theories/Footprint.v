(** How much memory an allocator holds: its blocks double, so all of them together are
    about twice the newest one. *)
From Verif Require Import Base Spec Lex LexProofs Alloc AllocProofs ArenaExact Mem MemProofs Api Double Vocab Scene Dom CacheProofs Hist HistRun HistStep HistCache HistSim HistAll HistJudge HistMany HistWorld HistDocs Leak Count SpecProofs PrintFacts ParseFacts PureParse ParseTop HistForest HistValid HistTree.
From Verif Require OverRead.

(** The blocks of an allocator, newest first: powers of two, each at least twice the one
    before, the oldest of at least 4096 bytes with the allocator itself in front. *)
Fixpoint shape (ar : arena) : Prop :=
  match ar with
  | [] => False
  | c :: r =>
      pow2 (ckSize c) /\ ckPos c <= ckSize c /\
      match r with [] => ckBase c = 40 | c' :: _ => ckBase c = 24 /\ 2 * ckSize c' <= ckSize c /\ shape r end
  end.
Lemma shape_first b : shape [first_chunk b].
Proof. cbn [shape first_chunk ckSize ckPos ckBase]. split; [apply pow2_first|]. split; [unfold zj_AllocatorInitMemSize; lia|reflexivity]. Qed.
Lemma shape_alloc next ar n o : shape ar -> arena_alloc next ar (u32 n) = Ok o -> shape (oarena o).
Proof.
  intros Sh H. destruct ar as [|c r]; [discriminate|]. pose proof (u32_lt n) as Ln. set (m := u32 n) in *. clearbody m.
  assert (P : pow2 (ckSize c)) by apply Sh. assert (Lp : ckPos c <= ckSize c) by apply Sh. pose proof (pow2_le _ P) as B.
  unfold arena_alloc in H. destruct (N.ltb_spec (ckSize c) (u32 (ckPos c + m))) as [L|L].
  - destruct (N.lt_ge_cases (ckSize c) two31) as [K|K].
    + destruct (N.le_gt_cases m two31) as [K2|K2].
      * assert (Lm : ckSize c < ckPos c + m).
        { pose proof (N.mod_le (ckPos c + m) two32) as Q. unfold u32 in L. unfold two32 in *. lia. }
        pose proof (one_grows next c r m P Lp Lm K K2) as E. unfold arena_alloc in E. destruct (N.ltb_spec (ckSize c) (u32 (ckPos c + m))); [|lia].
        rewrite E in H. injection H as <-. cbn [oarena]. split; [now apply pow2_next|]. cbn [ckPos ckSize ckBase]. split; [|split; [reflexivity|split; [unfold next_cap; lia|exact Sh]]].
        unfold next_cap. assert (m <= 2 ^ N.log2_up m); [|lia]. destruct (N.eq_dec m 0) as [->|]; [lia|]. destruct (N.eq_dec m 1) as [->|]; [cbn; lia|]. apply N.log2_up_spec. lia.
      * rewrite (one_forever c m P) in H; [discriminate|lia|auto].
    + rewrite (one_forever c m P) in H; [discriminate| |auto]. destruct (N.eq_dec m 0) as [->|]; [|lia].
      rewrite N.add_0_r, u32_small in L by (unfold two31, two32 in *; lia). lia.
  - injection H as <-. cbn [oarena shape ckSize ckPos ckBase]. split; [exact P|]. split; [exact L|]. apply Sh.
Qed.

Definition shaped (s : st) : Prop := forall A ar, sallocs s A = Some ar -> shape ar.
Definition keepsS {X} (m : M X) : Prop := forall s x s', shaped s -> m s = Ok (x, s') -> shaped s'.
Lemma ks_same X (m : M X) : (forall s x s', m s = Ok (x, s') -> sallocs s' = sallocs s) -> keepsS m.
Proof. intros H s x s' Sh E. unfold shaped. rewrite (H s x s' E). exact Sh. Qed.
Lemma ks_ret X (x : X) : keepsS (ret x). Proof. apply ks_same. intros s y s' [= <- <-]. auto. Qed.
Lemma ks_fail X e : keepsS (@fail X e). Proof. intros s y s' _ H. discriminate. Qed.
Lemma ks_lift X (r : res X) : keepsS (lift r).
Proof. apply ks_same. intros s y s' H. unfold lift in H. destruct r; [|discriminate]. now injection H as <- <-. Qed.
Lemma ks_get X (f : st -> option X) e : keepsS (get f e).
Proof. apply ks_same. intros s y s' H. unfold get in H. destruct (f s); [|discriminate]. now injection H as <- <-. Qed.
Lemma ks_bind X Y (m : M X) (f : X -> M Y) : keepsS m -> (forall x, keepsS (f x)) -> keepsS (bind m f).
Proof.
  intros H K s y s' Sh E. unfold bind in E. destruct (m s) as [[x s1]|e] eqn:E1; [|discriminate]. exact (K x s1 y s' (H s x s1 Sh E1) E).
Qed.
Lemma ks_alloc A n : keepsS (zj_allocatorAlloc A n).
Proof.
  intros s x s' Sh H. unfold zj_allocatorAlloc in H. destruct (sallocs s A) as [ar|] eqn:EA; [|discriminate].
  destruct (arena_alloc (snext s) ar (u32 n)) as [o|e] eqn:Eo; [|discriminate].
  destruct (match onew o with Some m => updN (sbsize s) (snext s) (Some m) | None => sbsize s end (fst (oaddr o))) as [tot|]; [|discriminate].
  destruct (tot <? _); [discriminate|]. injection H as <- <-. intros B ar' HB. cbn [sallocs] in HB.
  destruct (N.eq_dec B A) as [->|D]; [|rewrite updN_neq in HB by auto; exact (Sh B ar' HB)].
  rewrite updN_eq in HB. injection HB as <-. exact (shape_alloc _ _ _ _ (Sh A ar EA) Eo).
Qed.
Lemma ks_new : keepsS zj_NewAllocator.
Proof.
  intros s x s' Sh H. unfold zj_NewAllocator in H. injection H as <- <-. intros B ar' HB. cbn [sallocs] in HB.
  destruct (N.eq_dec B (snext s)) as [->|D]; [|rewrite updN_neq in HB by auto; exact (Sh B ar' HB)]. rewrite updN_eq in HB. injection HB as <-. apply shape_first.
Qed.
Lemma ks_store a n b : keepsS (store a n b).
Proof. apply ks_same. intros s x s' H. unfold store in H. destruct (_ <? _); [discriminate|]. now injection H as <- <-. Qed.
Lemma ks_load a n : keepsS (load a n).
Proof. apply ks_get. Qed.
Lemma ks_putNode a n : keepsS (putNode a n).
Proof. apply ks_same. intros s x s' H. now injection H as <- <-. Qed.
Lemma ks_putVal a n : keepsS (putVal a n).
Proof. apply ks_same. intros s x s' H. now injection H as <- <-. Qed.
Lemma ks_putZ a n : keepsS (putZ a n).
Proof. apply ks_same. intros s x s' H. now injection H as <- <-. Qed.
Lemma ks_buf t : keepsS (user_buf t).
Proof. apply ks_same. intros s x s' H. unfold user_buf in H. destruct (_ <=? _); [discriminate|]. now injection H as <- <-. Qed.
Lemma ks_user_free p : keepsS (user_free p).
Proof. apply ks_same. intros s x s' H. unfold user_free in H. destruct (sbsize s p); [|discriminate]. now injection H as <- <-. Qed.
Create HintDb keepsh.
#[local] Hint Resolve ks_alloc ks_new ks_store ks_load ks_putNode ks_putVal ks_putZ ks_buf ks_user_free : keepsh.
Ltac shstep :=
  match goal with
  | |- keepsS (ret _) => apply ks_ret
  | |- keepsS (fail _) => apply ks_fail
  | |- keepsS (lift _) => apply ks_lift
  | |- keepsS (get _ _) => apply ks_get
  | |- keepsS (bind _ _) => apply ks_bind; [|intro]
  | |- keepsS (match ?x with _ => _ end) => destruct x
  | |- keepsS (fun _ => _) => apply ks_same; let H := fresh in intros ? ? ? H; cbv beta in H; first [injection H as <- <-; auto]
  | H : _ |- _ => exact H || apply H
  | |- _ => solve [auto with keepsh nocore]
  | |- keepsS ?m => let h := heads m in unfold h; cbv beta zeta
  end.
Ltac shp := cbv zeta; repeat shstep.
Lemma ks_parse_loop zn A p tot root : forall fuel m n rest, keepsS (parse_loop zn fuel A p tot root m n rest).
Proof. induction fuel as [|f IH]; intros; cbn [parse_loop]; shp. Qed.
Lemma ks_stringify_loop root str : forall fuel m n, keepsS (stringify_loop fuel root str m n).
Proof. induction fuel as [|f IH]; intros; cbn [stringify_loop]; shp. Qed.
Lemma ks_find_node test : (forall n, keepsS (test n)) -> forall fuel w, keepsS (find_node fuel test w).
Proof. intro T. induction fuel as [|f IH]; intros; cbn [find_node]; shp. Qed.
Lemma ks_nth_node idx : forall fuel i w, keepsS (nth_node fuel i idx w).
Proof. induction fuel as [|f IH]; intros; cbn [nth_node]; shp. Qed.
Lemma ks_copy_loop A root : forall fuel m n w, keepsS (copy_loop fuel A root m n w).
Proof. induction fuel as [|f IH]; intros; cbn [copy_loop]; shp. Qed.
Lemma ks_adopt p : forall fuel w, keepsS (adopt fuel p w).
Proof. induction fuel as [|f IH]; intros; cbn [adopt]; shp. Qed.
#[local] Hint Resolve ks_parse_loop ks_stringify_loop ks_nth_node ks_copy_loop ks_adopt : keepsh.
Ltac shstep ::=
  match goal with
  | |- keepsS (ret _) => apply ks_ret
  | |- keepsS (fail _) => apply ks_fail
  | |- keepsS (lift _) => apply ks_lift
  | |- keepsS (get _ _) => apply ks_get
  | |- keepsS (bind _ _) => apply ks_bind; [|intro]
  | |- keepsS (find_node _ _ _) => apply ks_find_node; intro
  | |- keepsS (match ?x with _ => _ end) => destruct x
  | |- keepsS (fun _ => _) => apply ks_same; let H := fresh in intros ? ? ? H; cbv beta in H; first [injection H as <- <-; auto]
  | H : _ |- _ => exact H || apply H
  | |- _ => solve [auto with keepsh nocore]
  | |- keepsS ?m => let h := heads m in unfold h; cbv beta zeta
  end.
Lemma ks_cstep fuel c E : keepsS (cstep fuel c E).
Proof. destruct c; cbn [cstep]; try (shp; fail). Qed.
Lemma ks_free_blk b : keepsS (free_blk b).
Proof. apply ks_same. intros s x s' H. unfold free_blk in H. destruct (sbsize s b); [|discriminate]. now injection H as <- <-. Qed.
Lemma ks_free_blks l : keepsS (free_blks l).
Proof. induction l as [|b l IH]; cbn [free_blks]; [apply ks_ret|]. apply ks_bind; [apply ks_free_blk|auto]. Qed.
Lemma ks_release A : keepsS (zj_ReleaseAllocator A).
Proof.
  unfold zj_ReleaseAllocator. apply ks_bind; [apply ks_get|]. intro ar. destruct (rev (map ckBlk ar)) as [|b l]; [apply ks_fail|].
  apply ks_bind; [apply ks_free_blks|]. intros _. apply ks_bind; [apply ks_free_blk|]. intros _ s x s' Sh H. injection H as <- <-. intros B ar' HB. cbn [sallocs] in HB.
  destruct (N.eq_dec B A) as [->|D]; [rewrite updN_eq in HB; discriminate|]. rewrite updN_neq in HB by auto. exact (Sh B ar' HB).
Qed.
Lemma ks_release_all l : keepsS (release_all l).
Proof. induction l as [|A l IH]; cbn [release_all]; [apply ks_ret|]. apply ks_bind; [apply ks_release|auto]. Qed.
Lemma ks_erun fuel : forall es Es, keepsS (erun fuel es Es).
Proof.
  induction es as [|e r IH]; intro Es; cbn [erun]; [apply ks_ret|]. apply ks_bind; [|intro xe; apply ks_bind; [apply IH|intro; apply ks_ret]].
  destruct e as [g c|g]; cbn [estep]; (apply ks_bind; [|intro; apply ks_ret]); [apply ks_cstep|apply ks_release_all].
Qed.
Lemma ks_crun fuel : forall cs E, keepsS (HistRun.crun fuel cs E).
Proof.
  induction cs as [|c r IH]; intro E; cbn [HistRun.crun]; [apply ks_ret|]. apply ks_bind; [apply ks_cstep|]. intro xe. apply ks_bind; [apply IH|intro; apply ks_ret].
Qed.
Lemma shaped_init : shaped init.
Proof. intros A ar H. discriminate. Qed.

(** ** Sizes *)
Definition held (ar : arena) : N := fold_right (fun c n => ckBase c + ckSize c + n) 0 ar.
Lemma shape_held : forall r c, shape (c :: r) ->
  held (c :: r) + 4096 <= 16 + 24 * lenN (c :: r) + 2 * ckSize c /\ 4096 * 2 ^ lenN r <= ckSize c.
Proof.
  induction r as [|c' r IH]; intros c (P & Lp & H).
  - cbn [held fold_right]. rewrite H. pose proof (pow2_le _ P). change (lenN [c]) with 1. change (2 ^ lenN (@nil chunk)) with 1. lia.
  - destruct H as (Hb & Hd & Sh). destruct (IH c' Sh) as [K1 K2]. pose proof (pow2_le _ P). cbn [held fold_right] in *. rewrite Hb, !lenN_cons in *.
    rewrite N.pow_add_r. change (2 ^ 1) with 2. split; lia.
Qed.

(** [l] lists the blocks of allocator [A]. *)
Definition blocks_of (s : st) (A : N) (l : list N) : Prop := NoDup l /\ forall b, In b l <-> owns s A b.
Lemma blocks_few s A l : shaped s -> NoDup l -> (forall b, In b l -> owns s A b) -> lenN l <= 20.
Proof.
  intros Sh ND H. destruct l as [|b0 l0]; [change (lenN (@nil N)) with 0; lia|]. set (l := b0 :: l0) in *. destruct (H b0 (or_introl eq_refl)) as (ar & _ & EA & _).
  assert (L : lenN l <= lenN ar).
  { unfold lenN. rewrite <- (map_length ckBlk ar). assert ((length l <= length (map ckBlk ar))%nat); [|lia]. apply NoDup_incl_length; auto.
    intros b Hb. destruct (H b Hb) as (ar' & k & E & I & <-). rewrite EA in E. injection E as <-. now apply in_map. }
  pose proof (Sh A ar EA) as S. destruct ar as [|c r]; [destruct S|]. destruct (shape_held r c S) as [_ K]. destruct S as (P & _). apply pow2_le in P. rewrite lenN_cons in L.
  assert (Q : 2 ^ lenN r <= 2 ^ 19) by (change (2 ^ 19) with 524288; unfold two31 in P; lia). apply N.pow_le_mono_r_iff in Q; lia.
Qed.
Theorem few_blocks fuel es rs Es s A l : erun fuel es wenv0 init = Ok ((rs, Es), s) -> NoDup l -> (forall b, In b l -> owns s A b) -> lenN l <= 20.
Proof. intro H. apply blocks_few. exact (ks_erun fuel es wenv0 init _ _ shaped_init H). Qed.

Lemma sizes_held s : forall ar, (forall c, In c ar -> sbsize s (ckBlk c) = Some (ckBase c + ckSize c)) -> sizes s (map ckBlk ar) = held ar.
Proof.
  induction ar as [|c r IH]; intro H; [reflexivity|]. cbn [map sizes fold_right held]. fold (sizes s (map ckBlk r)) (held r). rewrite IH by (intros; apply H; now right).
  unfold size_of. now rewrite (H c (or_introl eq_refl)).
Qed.
(** What an allocator holds whose requests come to at most [u] bytes. *)
Definition frugal (s : st) (A u : N) : Prop :=
  exists l, blocks_of s A l /\ sizes s l + 4096 <= 16 + 24 * lenN l + N.max 8192 (4 * u) /\ 2048 * 2 ^ lenN l <= N.max 4096 (2 * u).
Lemma frugal_ok s A u : wfst s -> shaped s -> alive s A -> usedA s A <= u -> frugal s A u.
Proof.
  intros W Sh Al Hu. unfold alive in Al. unfold usedA in Hu. destruct (sallocs s A) as [ar|] eqn:EA; [|now elim Al].
  destruct (w_ar s W A ar EA) as ((Wa & _) & ND & _). pose proof (Sh A ar EA) as S. exists (map ckBlk ar). split; [split; auto|].
  - intro b. rewrite in_map_iff. split; [intros (k & E & I); exists ar, k; auto|]. intros (ar' & k & E & I & Ek). rewrite EA in E. injection E as <-. eauto.
  - rewrite sizes_held by (intros c I; exact (proj1 (w_chunk s W A ar c EA I))). destruct ar as [|c r]; [destruct S|]. destruct (shape_held r c S) as [K1 K2].
    replace (lenN (map ckBlk (c :: r))) with (lenN (c :: r)) by (unfold lenN; now rewrite map_length). destruct Wa as [_ Wa]. unfold zj_AllocatorInitMemSize in Wa.
    split; [lia|]. rewrite lenN_cons, N.pow_add_r. change (2 ^ 1) with 2. lia.
Qed.
Lemma represents_frugal R E s k A u : represents R E s -> shaped s -> nth_error (ea E) k = Some A -> nth_error (ru R) k = Some u -> frugal s A u.
Proof.
  intros (nm & F & S) Sh HA Hu. destruct (sm_arena _ _ _ _ _ S k A u HA Hu) as (Al & _ & L). apply frugal_ok; auto. exact (i_wf _ _ (sm_inv _ _ _ _ _ S)).
Qed.
Theorem frugal_program jd es rs W : correct jd -> wrun jd es wstart = Some (rs, W) ->
  exists f0, forall fuel, (f0 <= fuel)%nat -> exists Es s, erun fuel es wenv0 init = Ok ((rs, Es), s) /\
    forall g k A u, nth_error (ea (Es g)) k = Some A -> nth_error (ru (wr W g)) k = Some u -> frugal s A u.
Proof.
  intros J H. destruct (many jd es rs W J H) as (f0 & K). exists f0. intros fuel Hf. destruct (K fuel Hf) as (Es & s & Er & Rp). exists Es, s. split; auto.
  intros g k A u HA Hu. exact (represents_frugal _ _ _ _ _ _ (Rp g) (ks_erun fuel es wenv0 init _ _ shaped_init Er) HA Hu).
Qed.

(** ** One document *)
Definition document (t : bytes) : list call := [CNewAllocator; CNewValue 0; CParse PCopy 0 t []; CStringify 0].
Lemma print_shorter t j : json_text t j -> lenN (print j) <= lenN t.
Proof. intro J. rewrite <- (minify_print t j J). unfold lenN. pose proof (minify_len Outside t). unfold minify. lia. Qed.
Lemma document_run jd t j : correct jd -> json_text t j -> 16 + len_cost (lenN t) + print_cost (lenN t) <= two30 ->
  exists R u, rrun jd (document t) rstart = Some ([Arena 0; Value (Some 0%nat); Bool true; Text (Some (print j))], R) /\
    nth_error (ru R) 0 = Some u /\ u <= 16 + len_cost (lenN t) + print_cost (lenN t).
Proof.
  intros J P Hc. pose proof (print_shorter t j P) as Lp.
  set (R0 := mkR noforest 0 [] [0]). destruct (spend_ok R0 0 0 16 eq_refl) as (R2 & S2 & G2 & N2 & H2 & U2); [vm_compute; discriminate|].
  destruct (spend_ok (new_value R2 None 0) 0 _ (len_cost (lenN t)) U2) as (R3 & S3 & G3 & N3 & H3 & U3); [lia|].
  assert (Ln : nth_error (rh (new_value R2 None 0)) 0 = Some (None, 0%nat)) by (cbn [new_value rh]; now rewrite H2).
  assert (E3 : rstep jd (CParse PCopy 0 t []) (new_value R2 None 0) = Some (Bool true, sealed R3 None (assign R3 0 None j))).
  { cbn [rstep]. unfold look at 1. rewrite Ln. pose proof (json_text_no0 _ _ P) as N0. assert (Oj : o_json jd t = Some j) by (apply (jd_json _ J); auto).
    assert (Cj : o_cut jd t 0 = false).
    { destruct (o_cut jd t 0) eqn:Bc; auto. exfalso. apply (jd_cut _ J) in Bc; auto. exact (OverRead.cut_invalid _ _ Bc N0 (ex_intro _ j P)). }
    rewrite Oj, Cj. cbn [negb]. assert (Oc : ok_c t = true).
    { unfold ok_c. destruct (has0 t) eqn:E; auto. exfalso. apply N0. now apply has0_in. }
    assert (Ft : fits (t ++ [0]) = true).
    { unfold fits. apply N.ltb_lt. rewrite lenN_app1. unfold len_cost in Hc. change two30 with 1073741824 in Hc. change two32 with 4294967296. lia. }
    rewrite Oc, Ft. cbn [andb]. now rewrite S3. }
  assert (L3 : nth_error (rh R3) 0 = Some (None, 0%nat)) by now rewrite H3.
  destruct (assign_new R3 0 None 0 j L3) as (tm & k & L4' & R4 & U4). destruct (sealed_look R3 None _ _ _ _ _ L4') as (tn & L4).
  rewrite <- (read_sealed R3 None) in R4. set (R5 := sealed R3 None (assign R3 0 None j)) in *. change (ru (assign R3 0 None j)) with (ru R5) in U4.
  assert (Q1 : rrun jd [CNewAllocator] rstart = Some ([Arena 0], R0)) by reflexivity.
  assert (E2 : rstep jd (CNewValue 0) R0 = Some (Value (Some 0%nat), new_value R2 None 0)) by (cbn [rstep]; rewrite S2, H2; reflexivity).
  pose proof (rrun_snoc _ _ _ _ _ _ _ _ Q1 E2) as Q2. pose proof (rrun_snoc _ _ _ _ _ _ _ _ Q2 E3) as Q3.
  pose proof (docs_program _ _ _ _ J Q3) as D5. pose proof (docs_reads R5 _ _ _ D5 R4) as Er5. pose proof U3 as U3'. rewrite <- U4 in U3.
  destruct (docs_read R5 (rn R3) D5) as (j' & Er' & Jk).
  { unfold look in L4. destruct (nth_error (rh R5) 0) as [[[y|] a]|]; try discriminate. destruct (rG R5 y) eqn:E; [|discriminate]. injection L4 as <- _ _. congruence. }
  rewrite Er5 in Er'. injection Er' as <-.
  destruct (stringify_step jd R5 0 _ tn 0 j _ L4 Er5 Jk U3) as (R6 & S6 & _ & _ & _ & U6); [unfold print_cost in *; lia|].
  pose proof (rrun_snoc _ _ _ _ _ _ _ _ Q3 S6) as Q4. exists R6. eexists. split; [exact Q4|]. split; [exact U6|]. unfold print_cost. lia.
Qed.
Lemma crun_ea fuel : forall cs E, ~ In CNewAllocator cs -> gives (HistRun.crun fuel cs E) (fun re => ea (snd re) = ea E).
Proof.
  induction cs as [|c r IH]; intros E Nc; cbn [HistRun.crun]; [now apply gi_ret|]. intros s x s' H. unfold bind in H.
  destruct (cstep fuel c E s) as [[xe s1]|] eqn:E1; [|discriminate]. destruct (HistRun.crun fuel r (snd xe) s1) as [[re s2]|] eqn:E2; [|discriminate]. injection H as <- <-. cbn [snd].
  rewrite (IH (snd xe) (fun K => Nc (or_intror K)) _ _ _ E2). assert (Nd : c <> CNewAllocator) by (intros ->; apply Nc; now left). exact (cstep_ea fuel c E Nd _ _ _ E1).
Qed.
Lemma document_ea fuel t s x s' : HistRun.crun fuel (document t) estart s = Ok (x, s') -> exists A, ea (snd x) = [A].
Proof.
  unfold document. cbn [HistRun.crun]. intro H. unfold bind at 1 in H. destruct (cstep fuel CNewAllocator estart s) as [[xe s1]|] eqn:E1; [|discriminate]. unfold bind at 1 in H.
  match type of H with context[match ?m s1 with _ => _ end] => destruct (m s1) as [[re s2]|] eqn:E2 end; [|discriminate]. injection H as <- <-. cbn [snd].
  assert (Nc : ~ In CNewAllocator [CNewValue 0; CParse PCopy 0 t []; CStringify 0]) by (intros [K|[K|[K|[]]]]; discriminate).
  rewrite (crun_ea fuel _ (snd xe) Nc s1 re s2 E2). cbn [cstep] in E1. unfold bind, zj_NewAllocator, ret in E1. injection E1 as <- _. cbn. eauto.
Qed.
Theorem document_memory t j : json_text t j -> 77 * lenN t + 1213 <= two30 ->
  exists f0, forall fuel, (f0 <= fuel)%nat -> exists E s A l,
    HistRun.crun fuel (document t) estart init = Ok (([Arena 0; Value (Some 0%nat); Bool true; Text (Some (print j))], E), s) /\
    ea E = [A] /\ blocks_of s A l /\ lenN l <= 20 /\ sizes s l <= 308 * lenN t + 4592.
Proof.
  intros P Hc. assert (Hc' : 16 + len_cost (lenN t) + print_cost (lenN t) <= two30) by (unfold len_cost, print_cost; lia).
  destruct (document_run the_judge t j judge_correct P Hc') as (R & u & Q & Hu & Lu). destruct (program _ _ _ _ judge_correct Q) as (f0 & Z). exists f0. intros fuel Hf.
  destruct (Z fuel Hf) as (E & s & Ec & Rp). destruct (document_ea _ _ _ _ _ Ec) as (A & EA). cbn [snd] in EA.
  pose proof (ks_crun fuel (document t) estart init _ _ shaped_init Ec) as Sh.
  assert (HA : nth_error (ea E) 0 = Some A) by now rewrite EA. destruct (represents_frugal _ _ _ _ _ _ Rp Sh HA Hu) as (l & Bl & K & _). exists E, s, A, l. split; auto. split; auto. split; auto.
  assert (L20 : lenN l <= 20) by (apply (blocks_few s A l Sh); [apply Bl|]; intros b Hb; now apply (proj2 Bl)). split; auto. unfold len_cost, print_cost in Lu. lia.
Qed.
