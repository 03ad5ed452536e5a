(** The allocator of the C++ interface: constructor and destructor. *)
From Verif Require Import Base Spec Lex LexProofs Alloc AllocProofs Mem MemProofs Api PureParse Dom Steps Start MemFacts.

(** zj_Allocator::zj_Allocator(), zzzjson.h:456-464: the object is the caller's, only the
    first chunk with its header is obtained from malloc.  The allocator is named by
    that block.  malloc is assumed not to return null. *)
Definition cpp_chunk (blk : N) : chunk := mkChunk blk sizeof_aNode zj_AllocatorInitMemSize 0.
Definition cpp_new : M N := fun s =>
  let b := snext s in
  Ok (b, mkSt (sbytes s) (snodes s) (svals s) (sstrs s)
              (updN (sallocs s) b (Some [cpp_chunk b]))
              (updN (sbsize s) b (Some (sizeof_aNode + zj_AllocatorInitMemSize)))
              (b + 1) (scache s) (count_new (sizeof_aNode + zj_AllocatorInitMemSize) (scnt s))).
(** zj_Allocator::~zj_Allocator(), zzzjson.h:465-472: all chunks from Root in list order.
    Root is read first: if another object with the same Root was destroyed before
    (copying an object copies the two pointers), that memory is gone. *)
Definition cpp_delete (A : N) : M unit :=
  ar <- get (fun s => sallocs s A) EDeref ;;
  free_blks (rev (map ckBlk ar)) ;;;
  (fun s => Ok (tt, mkSt (sbytes s) (snodes s) (svals s) (sstrs s) (updN (sallocs s) A None)
                         (sbsize s) (snext s) (scache s) (scnt s))).

Lemma cpp_wf b : wf_arena [cpp_chunk b].
Proof. split; [simpl; unfold zj_AllocatorInitMemSize; lia|]. repeat constructor. simpl. lia. Qed.

Lemma cpp_new_wp s : wfst s -> wp cpp_new s (fun A s' => ext none none zeroc s s' /\
  A = snext s /\ alive s' A /\ usedA s' A = 0 /\ svals s' = svals s).
Proof.
  intro W. eexists _, _. split; [reflexivity|].
  assert (Hs : sbsize s (snext s) = None /\ sallocs s (snext s) = None) by (apply (w_next s W); lia).
  destruct Hs as [Hs Ha].
  assert (Hd : forall o, nothing s (snext s, o)) by (intro o; apply (w_dead s W); auto).
  assert (Lt : forall A ar k, sallocs s A = Some ar -> In k ar -> ckBlk k < snext s).
  { intros A ar k HA Hk. apply (ownblk_lt s _ W). exists A, ar, k. auto. }
  assert (Inr : forall A a n, inrA s A a n -> exists ar k,
    updN (sallocs s) (snext s) (Some [cpp_chunk (snext s)]) A = Some ar /\ In k ar /\ fst a = ckBlk k /\
    ckBase k <= snd a /\ snd a + n <= ckBase k + ckPos k).
  { intros A a n (ar & k & H1 & H2 & H3). exists ar, k. rewrite updN_neq; auto. intros ->. congruence. }
  split; [|split; [auto|split; [|split]]].
  2: { unfold alive. cbn. rewrite updN_eq. discriminate. }
  2: { unfold usedA. cbn [sallocs]. rewrite updN_eq. reflexivity. }
  2: { reflexivity. }
  assert (W' : wfst (mkSt (sbytes s) (snodes s) (svals s) (sstrs s)
              (updN (sallocs s) (snext s) (Some [cpp_chunk (snext s)]))
              (updN (sbsize s) (snext s) (Some (sizeof_aNode + zj_AllocatorInitMemSize)))
              (snext s + 1) (scache s) (count_new (sizeof_aNode + zj_AllocatorInitMemSize) (scnt s)))).
  { constructor; cbn [sbytes snodes svals sstrs sallocs sbsize snext scache].
    - intros b Hb. rewrite !updN_neq by lia. apply (w_next s W). lia.
    - lia.
    - intros A ar HA. destruct (N.eq_dec A (snext s)) as [->|D].
      + rewrite updN_eq in HA. injection HA as <-. split; [apply cpp_wf|]. split; [repeat constructor; intros []|].
        exists []. reflexivity.
      + rewrite updN_neq in HA by auto. now apply (w_ar s W).
    - intros A ar k HA Hk. destruct (N.eq_dec A (snext s)) as [->|D].
      + rewrite updN_eq in HA. injection HA as <-. destruct Hk as [<-|[]]. cbn [cpp_chunk ckBlk ckBase ckSize ckPos].
        rewrite updN_eq. split; [reflexivity|]. split; [pose proof (w_zero s W); lia|]. intros o _. apply Hd.
      + rewrite updN_neq in HA by auto. pose proof (Lt _ _ _ HA Hk). rewrite updN_neq by lia. now apply (w_chunk s W A ar k).
    - intros A A' ar ar' k k' HA HA' Hk Hk' E.
      destruct (N.eq_dec A (snext s)) as [->|D]; destruct (N.eq_dec A' (snext s)) as [->|D']; auto.
      + rewrite updN_eq in HA. injection HA as <-. rewrite updN_neq in HA' by auto. destruct Hk as [<-|[]].
        pose proof (Lt _ _ _ HA' Hk'). cbn [cpp_chunk ckBlk] in E. lia.
      + rewrite updN_eq in HA'. injection HA' as <-. rewrite updN_neq in HA by auto. destruct Hk' as [<-|[]].
        pose proof (Lt _ _ _ HA Hk). cbn [cpp_chunk ckBlk] in E. lia.
      + rewrite updN_neq in HA, HA' by auto. now apply (w_own s W A A' ar ar' k k').
    - intros a Hb. destruct (N.eq_dec (fst a) (snext s)) as [E|D].
      + rewrite E, updN_eq in Hb. discriminate.
      + rewrite updN_neq in Hb by auto. apply (w_dead s W a Hb).
    - intros a x Hx. destruct (w_bytes s W a x Hx) as (n & E & L). exists n. rewrite updN_neq; auto. intros K. congruence.
    - apply (w_static s W).
    - pose proof (w_cache s W) as K. destruct (scache s); auto. destruct (sstrs s a) as [z|]; auto.
      destruct K as (K1 & K2 & K3). split; [exact (Inr _ _ _ K1)|]. split; [exact (Inr _ _ _ K2)|auto]. }
  constructor; auto; cbn [sbytes snodes svals sstrs sallocs sbsize snext scache].
  - intros b n E. rewrite updN_neq; auto. intros ->. congruence.
  - intros A HA. unfold alive in *. cbn [sallocs]. rewrite updN_neq; auto. intros ->. congruence.
  - intros A ar k HA Hk. cbn [sallocs] in HA. destruct (N.eq_dec A (snext s)) as [->|D].
    + rewrite updN_eq in HA. injection HA as <-. destruct Hk as [<-|[]]. left. cbn. lia.
    + rewrite updN_neq in HA by auto. right. exists ar, k. repeat split; auto. lia.
  - lia.
  - intro A. unfold usedA. cbn [sallocs]. destruct (N.eq_dec A (snext s)) as [->|D].
    + rewrite updN_eq. cbn [used cpp_chunk ckPos]. lia.
    + rewrite updN_neq by auto. lia.
  - intros A _ HA. rewrite updN_neq; auto. intros ->. now apply HA.
Qed.
Lemma cpp_delete_wp s A : wfst s -> alive s A -> wp (cpp_delete A) s (fun _ s' => released s A s').
Proof.
  intros W Al. unfold wp, cpp_delete, bind, get. destruct (sallocs s A) as [ar|] eqn:EA; [|now elim Al].
  destruct (w_ar s W A ar EA) as (_ & ND & l0 & El).
  set (l := map ckBlk ar) in *.
  assert (HI : forall b, In b (rev l) <-> exists k, In k ar /\ ckBlk k = b).
  { intro b. rewrite <- in_rev. unfold l. rewrite in_map_iff. split; intros (k & K1 & K2); eauto. }
  assert (HA : In A (rev l)) by (rewrite <- in_rev, El, in_app_iff; simpl; auto).
  destruct (free_blks_ok (rev l) s) as (s1 & E & E1 & E2 & E3 & H1 & H0 & H2 & H3 & H4).
  { now apply NoDup_rev. }
  { intros b Hb. apply HI in Hb as (k & K1 & <-). destruct (w_chunk s W A ar k EA K1) as (K & _). congruence. }
  rewrite E. eexists tt, _. split; [reflexivity|]. set (s' := mkSt _ _ _ _ _ _ _ _ _).
  assert (D1 : forall b, In b (rev l) -> sbsize s' b = None) by exact H3.
  assert (D2 : forall b, ~ In b (rev l) -> sbsize s' b = sbsize s b) by exact H4.
  assert (D3 : forall a, In (fst a) (rev l) -> nothing s' a) by exact H1.
  assert (D4 : forall a, ~ In (fst a) (rev l) -> sbytes s' a = sbytes s a /\ snodes s' a = snodes s a /\ svals s' a = svals s a /\ sstrs s' a = sstrs s a) by exact H2.
  assert (D5 : forall a, nothing s a -> nothing s' a) by exact H0.
  assert (D6 : forall B, B <> A -> sallocs s' B = sallocs s B).
  { intros B NB. unfold s'. cbn. rewrite updN_neq by auto. now rewrite E1. }
  assert (D7 : sallocs s' A = None) by (unfold s'; cbn; apply updN_eq).
  assert (D8 : forall B ar', sallocs s' B = Some ar' -> B <> A /\ sallocs s B = Some ar').
  { intros B ar' HB. destruct (N.eq_dec B A) as [->|NB]; [congruence|]. rewrite D6 in HB; auto. }
  assert (D9 : forall B ar' k, sallocs s B = Some ar' -> B <> A -> In k ar' -> ~ In (ckBlk k) (rev l)).
  { intros B ar' k HB NB Hk K. apply HI in K as (k' & K1 & K2). apply NB. apply (w_own s W B A ar' ar k k'); auto. }
  assert (D10 : forall o : N, ~ In (fst (0, o)) (rev l)).
  { intros o K. apply HI in K as (k & K1 & K2). destruct (w_chunk s W A ar k EA K1) as (_ & K & _). cbn in K2. congruence. }
  constructor; auto.
  - constructor.
    + intros b Hb. unfold s' in Hb. cbn in Hb. rewrite E2 in Hb. destruct (w_next s W b Hb) as [K1 K2]. split.
      * destruct (in_dec N.eq_dec b (rev l)) as [K|K]; [apply D1; auto|]. rewrite D2; auto.
      * destruct (N.eq_dec b A) as [->|K']; auto. now rewrite D6.
    + unfold s'. cbn. rewrite E2. apply (w_zero s W).
    + intros B ar' HB. apply D8 in HB as [_ HB]. apply (w_ar s W B ar' HB).
    + intros B ar' k HB Hk. apply D8 in HB as [NB HB]. destruct (w_chunk s W B ar' k HB Hk) as (K1 & K2 & K3).
      rewrite D2 by (eapply D9; eauto). split; auto.
    + intros B B' ar1 ar2 k k' HB HB'. apply D8 in HB as [_ HB]. apply D8 in HB' as [_ HB']. apply (w_own s W B B' ar1 ar2 k k'); auto.
    + intros a Ha. destruct (in_dec N.eq_dec (fst a) (rev l)) as [K|K]; [apply D3; auto|]. rewrite D2 in Ha by auto. apply D5, (w_dead s W a Ha).
    + intros a x Hx. destruct (in_dec N.eq_dec (fst a) (rev l)) as [K|K]; [destruct (D3 a) as (G & _); auto; congruence|].
      rewrite (proj1 (D4 a ltac:(tauto))) in Hx. rewrite D2 by tauto. apply (w_bytes s W a x Hx).
    + intro o. rewrite (proj1 (D4 (0, o) (D10 o))). apply (w_static s W).
    + pose proof (w_cache s W) as K. change (scache s') with (scache s1). rewrite E3. destruct (scache s) as [| |p]; auto.
      destruct (sstrs s' p) as [z|] eqn:Ez; auto.
      assert (Np : ~ In (fst p) (rev l)).
      { intros Kp. destruct (D3 p Kp) as (_ & _ & _ & G). congruence. }
      destruct (D4 p Np) as (_ & _ & _ & G). rewrite G in Ez. rewrite Ez in K. destruct K as (K1 & K2 & K3).
      assert (NA : zA z <> A).
      { intros EzA. rewrite EzA in K1. destruct K1 as (ar0 & k & J1 & J2 & J3 & _). apply Np, HI. exists k. rewrite EA in J1. injection J1 as <-. auto. }
      assert (T : forall a n, inrA s (zA z) a n -> inrA s' (zA z) a n).
      { intros a m (ar0 & k & J1 & J2). exists ar0, k. rewrite D6; auto. }
      auto.
  - intros ar0 k EA' Hk. rewrite EA in EA'. injection EA' as <-. apply D1, HI. eauto.
  - intros b Nb. apply D2. intros K. apply HI in K as (k & K1 & K2). apply Nb. eauto.
  - intros a Na. apply D4. intros K. apply HI in K as (k & K1 & K2). apply Na. eauto.
Qed.

Lemma cpp_blocks s : (forall b, snext s <= b -> sbsize s b = None) ->
  exists s1, cpp_new s = Ok (snext s, s1) /\ blocks s s1 (snext s).
Proof.
  intro H. eexists. split; [reflexivity|]. constructor; cbn [snext sbsize sallocs].
  - intros b Hb. rewrite updN_neq by lia. apply H. lia.
  - lia.
  - intros b Hb. rewrite updN_neq by lia. reflexivity.
  - exists [cpp_chunk (snext s)], []. rewrite updN_eq. split; auto. split; auto. split; [repeat constructor; intros []|].
    intros b Hb. cbn. destruct (N.eq_dec b (snext s)) as [->|Nb].
    + rewrite updN_eq. split; [discriminate|auto].
    + rewrite updN_neq by auto. rewrite H by auto. split; [intros [K|[]]; congruence|now intros []].
  - intros ar k E Hk. rewrite updN_eq in E. injection E as <-. destruct Hk as [<-|[]]. cbn. lia.
Qed.

Lemma cpp_delete_blocks s0 s A : blocks s0 s A -> exists s', cpp_delete A s = Ok (tt, s') /\
  (forall b, b < snext s0 -> sbsize s' b = sbsize s0 b) /\ (forall b, snext s0 <= b -> sbsize s' b = None) /\ sallocs s' A = None.
Proof.
  intros [Hn Hg Ho (ar & l & EA & El & ND & Hl) Hw]. unfold cpp_delete, bind, get. rewrite EA, El.
  assert (Hin : forall b, In b (l ++ [A]) -> snext s0 <= b).
  { intros b Hb. rewrite <- El in Hb. apply in_map_iff in Hb as (k & <- & K). eauto. }
  destruct (free_blks_ok (rev (l ++ [A])) s) as (s1 & E & E1 & E2 & E3 & H1 & H0 & H2 & H3 & H4).
  { now apply NoDup_rev. }
  { intros b Hb. rewrite <- in_rev in Hb. apply Hl; auto. }
  rewrite E. eexists. split; [reflexivity|]. cbn [sbsize sallocs]. split; [|split; [|apply updN_eq]].
  - intros b Hb. rewrite H4; auto. rewrite <- in_rev. intro K. apply Hin in K. lia.
  - intros b Hb. destruct (in_dec N.eq_dec b (l ++ [A])) as [K|K]; [apply H3; now rewrite <- in_rev|]. rewrite H4 by now rewrite <- in_rev.
    destruct (sbsize s b) as [m|] eqn:Eb; auto. exfalso. apply K, Hl; congruence.
Qed.
(** New object, any requests, destruction. *)
Lemma cpp_released s l A s1 rs s2 : (forall b, snext s <= b -> sbsize s b = None) ->
  cpp_new s = Ok (A, s1) -> requests A l s1 = Ok (rs, s2) ->
  exists s3, cpp_delete A s2 = Ok (tt, s3) /\ (forall b, sbsize s3 b = sbsize s b) /\ (exists e, cpp_delete A s3 = Err e).
Proof.
  intros H E1 E2. destruct (cpp_blocks s H) as (s1' & E1' & B). rewrite E1 in E1'. injection E1' as -> <-.
  pose proof (requests_blocks _ _ _ _ _ _ B E2) as B2. destruct (cpp_delete_blocks _ _ _ B2) as (s3 & E3 & K1 & K2 & K3).
  exists s3. split; auto. split.
  - intro b. destruct (N.lt_ge_cases b (snext s)) as [L|L]; auto. rewrite K2, H; auto.
  - unfold cpp_delete, bind, get. rewrite K3. eauto.
Qed.

(** The new object serves documents like any other allocator; those there are stay. *)
Lemma cpp_start (VV : vols) s F : inv s F -> exists A v s1 s2, cpp_new s = Ok (A, s1) /\ zj_NewValue A s1 = Ok (v, s2) /\
  inv s2 F /\ alive s2 A /\ sallocs s A = None /\ handle s2 F v Null A /\ usedA s2 A <= 16 /\
  forall u w B, handle s F u w B -> handle s2 F u w B.
Proof.
  intro I. destruct (cpp_new_wp s (i_wf _ _ I)) as (A & s1 & E1 & X1 & EA & Al & U & V).
  assert (I1 : inv s1 F) by (eapply ext_inv; eauto).
  assert (NA : ~ isvol A) by exact (newAllocator_inv s F A s1 I X1 EA).
  destruct (newValue_wp s1 F A I1 Al NA) as (v & s2 & E2 & X2 & I2 & H2 & B2); [rewrite U; vm_compute; discriminate|].
  exists A, v, s1, s2. split; auto. split; auto. split; auto. split; [now apply (x_alive _ _ _ _ _ X2)|].
  split; [subst A; apply (w_next s (i_wf _ _ I)); lia|]. split; auto.
  split; [pose proof (x_used _ _ _ _ _ X2 A) as K; rewrite U, at_eq in K; lia|].
  intros u w B Hu. eapply handle_ext; [exact X2| |eapply handle_ext; [exact X1| |exact Hu]]; auto.
Qed.
Lemma cpp_delete_isolated (VV : vols) s F A : inv s F -> isvol A -> alive s A -> exists s', cpp_delete A s = Ok (tt, s') /\
  inv s' F /\ forall v w B, handle s F v w B -> ~ vol s (fst v) -> handle s' F v w B.
Proof.
  intros I HA Al. pose proof (i_wf _ _ I) as W. destruct (cpp_delete_wp s A W Al) as ([] & s' & E & R).
  exists s'. split; auto. split; [eapply released_inv; eauto|]. intros v w B Hv Nv. eapply (released_handle s F v w A); eauto.
  - intros ->. destruct Hv as (_ & [_ K] & _). auto.
  - intros (ar & k & H1 & H2 & H3). apply Nv. right. exists A, ar, k. auto.
Qed.
Lemma cpp_anytime s A : wfst s -> alive s A -> exists s', cpp_delete A s = Ok (tt, s') /\ wfst s' /\
  (forall ar k, sallocs s A = Some ar -> In k ar -> sbsize s' (ckBlk k) = None) /\
  (forall b, ~ (exists ar k, sallocs s A = Some ar /\ In k ar /\ ckBlk k = b) -> sbsize s' b = sbsize s b) /\
  (forall B, B <> A -> sallocs s' B = sallocs s B) /\
  cpp_delete A s' = Err EDeref.
Proof.
  intros W Al. destruct (cpp_delete_wp s A W Al) as ([] & s' & E & R). exists s'. split; auto. split; [apply R|]. split; [apply R|].
  split; [apply R|]. split; [apply R|]. unfold cpp_delete, bind, get. now rewrite (rl_gone _ _ _ R).
Qed.
