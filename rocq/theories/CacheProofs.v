(** zj_checkStrLen and zj_checkNumLen: checking a counted string through the
    static string cache. *)
From Verif Require Import Base Spec Lex LexProofs Alloc AllocProofs Mem MemProofs Api PureParse Dom Steps StrBuf StringifyProofs.

(** The allocator the cache's memory comes from, [A] if there is no cache yet. *)
Definition cache_home (s : st) (A : N) : N :=
  match scache s with
  | At p => match sstrs s p with Some z => zA z | None => A end
  | _ => A
  end.
(** The cache is not left over from a released allocator. *)
Definition cache_live (s : st) : Prop := match scache s with At p => sstrs s p <> None | _ => True end.
Definition check_cost (n : N) : N := 152 + 4 * (n + 1).

Lemma inrA_used s A a n : wfst s -> inrA s A a n -> n <= usedA s A.
Proof.
  intros W (ar & c & H1 & H2 & _ & H3 & H4). unfold usedA. rewrite H1.
  assert (K : ckPos c <= used ar).
  { clear H1. induction ar as [|x ar IH]; [destruct H2|]. simpl. destruct H2 as [->|H2]; [lia|]. specialize (IH H2). lia. }
  lia.
Qed.

Lemma ext_set_cache Dn Dv c s0 s p z : ext Dn Dv c s0 s -> scache s0 = Null -> scache s = Null ->
  sstrs s0 p = None -> sstrs s p = Some z -> inrA s (zA z) p sizeof_string ->
  inrA s (zA z) (zData z) (zSize z) -> 0 < zSize z -> (forall i, i < zSize z -> wr s0 (offset (zData z) i)) ->
  c (zA z) <> 0 -> ext Dn Dv c s0 (set_cache (At p) s).
Proof.
  intros X C0 C Hp Hz I1 I2 Hs Hw Hc.
  assert (NC : forall a, ~ cacheR s0 a) by (intros a (q & y & E & _); congruence).
  assert (W : wfst (set_cache (At p) s)).
  { destruct (x_wf _ _ _ _ _ X). constructor; auto. simpl. rewrite Hz. auto. }
  destruct X. constructor; auto; simpl.
  - right. split; auto. exists p, (zA z). split; auto. split; auto. split; auto. split; auto. congruence.
  - intros a (q & y & E1 & E2 & E3 & E4). simpl in E1, E2. injection E1 as <-. rewrite Hz in E2. injection E2 as <-.
    right. specialize (Hw (snd a - snd (zData z)) ltac:(lia)).
    assert (E : offset (zData z) (snd a - snd (zData z)) = a).
    { unfold offset. rewrite <- E3. destruct a as [b o]. simpl in *. f_equal. lia. }
    rewrite E in Hw. destruct Hw as [Hw|Hw]; auto. now elim (NC a).
Qed.

Section Check.
Variables (check : bytes -> res (option N)) (good : Prop) (s : st) (A : N) (src : addr) (bs : bytes).
Hypothesis Hcheck : forall r, exists o, check (bs ++ 0 :: r) = Ok o /\ (o = Some (lenN bs) <-> good).
Hypothesis W : wfst s.
Hypothesis Al : alive s A.
Hypothesis Cl : cache_live s.
Hypothesis Hs : srctext s src bs.
Hypothesis Hu : usedA s (cache_home s A) + check_cost (lenN bs) <= two30.

Let H := cache_home s A.
Let c := at_ H (check_cost (lenN bs)).

Lemma check_len_tail s1 p I0 K0 : sbx none none H I0 K0 s s1 p [] -> I0 <= two30 -> K0 <= 152 -> alive s H ->
  svals s1 = svals s -> snodes s1 = snodes s ->
  wp (b <- load src (lenN bs) ;; zj_appendStr p b ;;; zj_appendEnd p ;;; d <- zj_str p ;; t <- readable d ;;
      r <- lift (check t) ;; ret (match r with Some avail_len => avail_len =? lenN bs | None => false end)) s1
     (fun b s' => (b = true <-> good) /\ ext none none c s s' /\ svals s' = svals s /\ snodes s' = snodes s).
Proof.
  intros B HI HK Alh Ev En. unfold check_cost in *.
  assert (X1 : ext none none (at_ H (K0 + 2 * (N.max I0 (2 * lenN (@nil N)) - I0))) s s1).
  { destruct (sbx_text _ _ _ _ _ _ _ _ _ B) as (d & s' & _ & -> & _ & _ & _ & X). exact X. }
  eapply wp_seq; [eapply (wp_load src _ bs) with (Q := fun b s' => b = bs /\ s' = s1); auto|].
  { apply (srctext_ext _ _ _ _ _ _ _ X1 Hs). }
  intros ? ? [-> ->].
  eapply wp_seq; [eapply appendStr_sb; eauto; unfold lenN in *; simpl; fold H in Hu; lia|].
  intros [] s2 [B2 E2]. cbn [app] in B2. unfold zj_appendEnd.
  eapply wp_seq; [eapply appendChar_sb; eauto; fold H in Hu; lia|].
  intros [] s3 [B3 E3].
  eapply wp_seq; [eapply sbx_text; eauto|].
  intros d ? (-> & Hd & Ind & _ & X3).
  apply wp_bind, wp_readable.
  destruct (holds_text s3 d _ (x_wf _ _ _ _ _ X3) Hd) as (r & ->).
  rewrite <- app_assoc. cbn [app].
  destruct (Hcheck r) as (o & Eo & Ho).
  apply wp_bind, (wp_lift _ o); auto. apply wp_ret.
  destruct E2 as [N2 V2 _], E3 as [N3 V3 _]. split; [|split; [|split; congruence]].
  - rewrite <- Ho. destruct o as [l|]; [|split; discriminate].
    rewrite N.eqb_eq. split; congruence.
  - eapply ext_more; [exact X3|]. rewrite lenN_app. unfold lenN at 2. simpl. lia.
Qed.

Lemma check_len_wp : wp (check_len check A src (lenN bs)) s
  (fun b s' => (b = true <-> good) /\ ext none none c s s' /\ svals s' = svals s /\ snodes s' = snodes s).
Proof.
  unfold check_len. apply wp_bind. eexists _, _. split; [reflexivity|].
  pose proof (w_cache s W) as Wc. unfold cache_live in Cl.
  pose proof Hu as Hu'. unfold check_cost in Hu'. fold H in Hu'.
  destruct (scache s) as [| |p] eqn:Ec; [destruct Wc| |].
  - (* no cache yet *)
    assert (EH : H = A) by (unfold H, cache_home; now rewrite Ec).
    apply wp_bind, wp_is_null with (b := true); auto. cbv iota. 
    eapply wp_seq with (P := fun p s1 => sbx none none H 128 152 s s1 p [] /\ svals s1 = svals s /\ snodes s1 = snodes s).
    + rewrite EH in *. eapply wp_seq; [eapply (newString_sb none none A 128 0 s s); auto; [now apply ext_start|lia|lia]|].
      intros p s1 ((d & size & B) & E1 & Bp). apply wp_bind. eexists _, _. split; [reflexivity|].
      apply wp_ret. destruct E1 as [N1 V1 C1]. split; auto.
      exists d, size. destruct B as [X Z P0 P D Wr Cr Hd L M Ps Mx]. constructor; auto.
      apply (ext_set_cache _ _ _ _ _ p (mkStr d (lenN (@nil N)) size A)); auto.
      * congruence.
      * apply (beyond_nothing s p W Bp).
      * cbn [zSize]. lia.
      * cbn [zA]. rewrite at_eq. lia.
    + intros p s1 (B & V1 & N1). eapply check_len_tail; eauto.
      * unfold two30. lia.
      * lia.
      * now rewrite EH.
  - (* reuse *)
    apply wp_bind, wp_is_null with (b := false); auto. cbv iota.
    destruct (sstrs s p) as [z|] eqn:Ez; [|congruence]. destruct Wc as (W1 & W2 & W3).
    assert (EH : H = zA z) by (unfold H, cache_home; now rewrite Ec, Ez).
    assert (Alh : alive s H) by (rewrite EH; eapply inrA_alive; eauto).
    assert (Us := inrA_used s _ _ _ W W2). rewrite <- EH in Us.
    eapply wp_seq with (P := fun q s1 => q = p /\ sbx none none H (zSize z) 0 s s1 p [] /\ svals s1 = svals s /\ snodes s1 = snodes s).
    + apply wp_bind, wp_deref, wp_bind. unfold zj_reset.
      apply wp_bind, (wp_getZ _ _ _ _ Ez), wp_putZ, wp_ret. split; auto. split; auto.
      assert (Wr : forall i, i < zSize z -> wr s (offset (zData z) i)).
      { intros i Hi. right. exists p, z. repeat split; auto; unfold offset; simpl; lia. }
      exists (zData z), (zSize z). rewrite EH. constructor; auto.
      * replace (0 + 2 * (zSize z - zSize z)) with 0 by lia.
        apply ext_putZ_wr; simpl; auto; [now apply ext_start|left; congruence].
      * simpl. apply upd_eq.
      * apply holds_nil.
      * unfold lenN. simpl. lia.
      * lia.
      * unfold lenN. simpl. lia.
    + intros q s1 (-> & B & V1 & N1). eapply check_len_tail; eauto; lia.
Qed.
End Check.

(** What the checks decide. *)
Lemma app_len_inv {X} (a b c d : list X) : length a = length c -> a ++ b = c ++ d -> a = c.
Proof.
  revert c. induction a as [|x a IH]; intros [|y c] L E; simpl in *; try discriminate; auto.
  injection E as <- E. f_equal. apply IH; auto.
Qed.
Lemma checkStr_dec bs r : exists o, zj_checkStr (bs ++ 0 :: r) = Ok o /\ (o = Some (lenN bs) <-> strbody_set bs).
Proof.
  destruct (checkStr_safe (bs ++ 0 :: r)) as (o & E); [rewrite in_app_iff; simpl; auto|].
  exists o. split; auto. split.
  - intros ->. apply checkStr_inv in E as (b & r' & Hb & E & El).
    assert (L : length bs = length b) by (unfold lenN in El; lia).
    apply app_len_inv in E; auto. now subst.
  - intro Hb. rewrite (checkStr_yes bs r Hb) in E. unfold lenN. congruence.
Qed.
Lemma checkNum_dec bs r : exists o, zj_checkNum (bs ++ 0 :: r) = Ok o /\ (o = Some (lenN bs) <-> number bs).
Proof.
  destruct (checkNum_safe (bs ++ 0 :: r)) as (o & E); [rewrite in_app_iff; simpl; auto|].
  exists o. split; auto. split.
  - intros ->. apply checkNum_inv in E as (b & r' & Hb & E & El).
    assert (L : length bs = length b) by (unfold lenN in El; lia).
    apply app_len_inv in E; auto. now subst.
  - intro Hb. rewrite (checkNum_yes bs r Hb) in E. unfold lenN. congruence.
Qed.
