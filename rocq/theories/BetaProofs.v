(** The functions of beta/zzzjson_beta.h that differ from zzzjson.h (Beta.v): the memory
    side.  The proofs about value objects follow those for zzzjson.h (GetProofs.v,
    CopyProofs.v, MoveProofs.v); a value object takes 48 bytes here. *)
From Verif Require Import Base Spec Lex LexProofs Alloc AllocProofs Mem MemProofs Api PureParse Dom Effect Steps StrBuf
  StringifyProofs ParseProofs ParseTop CacheProofs SetProofs IntProofs EscProofs Update KeyProofs GetProofs CopyProofs LinkProofs MoveProofs
  Double DoubleFacts Beta.

Section WithVol.
Context {VV : vols}.

Lemma newzval_step Dn Dv A k s0 s w : wfst s0 -> ext Dn Dv (at_ A k) s0 s -> alive s0 A ->
  usedA s0 A + k + 48 <= two30 ->
  wp (new_zvalue A w) s
    (fun v s' => ext Dn Dv (at_ A (k + 48)) s0 s' /\ beyond s v /\ vnew s s' v (mkVal w A)).
Proof.
  intros W X Ha Hu. unfold new_zvalue. eapply wp_seq; [eapply alloc_step; eauto; unfold sizeof_zValue; lia|].
  intros v s1 [X1 P]. apply wp_bind, wp_putVal, wp_ret.
  assert (B : beyond s v).
  { destruct v as [b o]. apply (ap_new _ _ _ _ _ P); unfold sizeof_zValue; simpl; lia. }
  split; [|split; auto].
  - apply ext_putVal; auto.
    + left. apply beyond_nothing; auto. exact (beyond_ext _ _ _ _ _ _ X B).
    + right. exists A. eapply inrA_less; [apply (ap_in _ _ _ _ _ P)|]. unfold sizeof_zValue. lia.
  - destruct P. constructor; simpl; auto; [apply upd_eq|]. intros. rewrite upd_neq; auto. now rewrite ap_vals.
Qed.
(** A new handle for a node. *)
Definition new_zhandle (s : st) (A : N) (o : option addr) (r : option addr) (s' : st) : Prop :=
  match o with
  | None => r = None /\ s' = s
  | Some a => exists h, r = Some h /\ beyond s h /\ vnew s s' h (mkVal (At a) A) /\ ext none none (at_ A 48) s s'
  end.
Lemma zhandle_wp s A o : wfst s -> alive s A -> usedA s A + 48 <= two30 -> wp (z_handle A o) s (new_zhandle s A o).
Proof.
  intros W Al Hu. destruct o as [a|]; [|now apply wp_ret].
  unfold z_handle. eapply wp_seq; [eapply (newzval_step none none A 0 s s (At a)); auto; [now apply ext_start|lia]|].
  intros h s' (X & B & U). apply wp_ret. exists h. auto.
Qed.

Section Children.
Variables (s : st) (F : dom) (v : addr) (A : N) (a : addr) (f : fnode).
Hypothesis I : inv s F.
Hypothesis H : handle s F v (At a) A.
Hypothesis Fa : F a = Some f.
Hypothesis Hu : usedA s A + 48 <= two30.

Definition zfound (P : addr -> Prop) (kids : list addr) (r : option addr) (s' : st) : Prop :=
  exists o, first_child P kids o /\ new_zhandle s A o r s'.

Lemma zobjGet_wp fuel kids key k r : fvalue f = VCont true kids -> text_at s key = k ++ 0 :: r -> ~ In 0 k ->
  (forall c fc b, In c kids -> F c = Some fc -> fkey fc = Some b -> ~ In 0 b) -> (length kids <= fuel)%nat ->
  wp (z_obj_get fuel v key) s (zfound (key_of F k) kids).
Proof.
  intros Ev Ht N0 Hk Hf. pose proof H as (_ & [Al NA] & _). destruct (kids_chain s F a f I Fa true kids Ev) as [Hc _].
  unfold z_obj_get. eapply with_type_node; eauto; [rewrite Ev; intro E; now elim E|].
  intros n _ Hn R. pose proof (r_val _ _ _ R) as Rv. rewrite Ev in Rv. destruct Rv as (_ & Ehd & _). rewrite Ehd.
  eapply wp_seq; [apply (find_wp s F a true _ (key_of F k) I kids); auto|].
  - intros c fc m Hi Fc Hm Rm. destruct (chain_in _ _ _ _ c Hc Hi) as (fc' & E1 & E2 & E3).
    assert (fc' = fc) by congruence. subst fc'. pose proof (r_key _ _ _ Rm) as Rk.
    destruct (fkey fc) as [b|] eqn:Ek; [|congruence]. destruct Rk as (p & K1 & K2 & K3 & _).
    apply wp_bind, (wp_rKeyLen _ _ _ _ K2). apply wp_bind. unfold load_w. apply wp_bind. rewrite K1. apply wp_deref.
    apply (wp_load p _ b); auto. apply wp_bind, wp_readable. rewrite Ht.
    destruct (strIsEqual_ok k r N0 b (Hk c fc b Hi Fc Ek)) as (e & G1 & G2).
    apply (wp_lift _ e); auto. split; auto. rewrite G2. unfold key_of. split.
    + intros ->. exists fc. auto.
    + intros (g & G3 & G4). congruence.
  - intros o s' [-> K]. eapply wp_mono; [apply zhandle_wp; auto; apply I|].
    intros r' s'' Hh. exists o. auto.
Qed.
Lemma zobjGetLen_wp fuel kids key k : fvalue f = VCont true kids -> holds s key k -> (length kids <= fuel)%nat ->
  wp (z_obj_get_len fuel v key (lenN k)) s (zfound (key_of F k) kids).
Proof.
  intros Ev Ht Hf. pose proof H as (_ & [Al NA] & _). destruct (kids_chain s F a f I Fa true kids Ev) as [Hc _].
  unfold z_obj_get_len. eapply with_type_node; eauto; [rewrite Ev; intro E; now elim E|].
  intros n _ Hn R. pose proof (r_val _ _ _ R) as Rv. rewrite Ev in Rv. destruct Rv as (_ & Ehd & _). rewrite Ehd.
  eapply wp_seq; [apply (find_wp s F a true _ (key_of F k) I kids); auto|].
  - intros c fc m Hi Fc Hm Rm. destruct (chain_in _ _ _ _ c Hc Hi) as (fc' & E1 & E2 & E3).
    assert (fc' = fc) by congruence. subst fc'. pose proof (r_key _ _ _ Rm) as Rk.
    destruct (fkey fc) as [b|] eqn:Ek; [|congruence]. destruct Rk as (p & K1 & K2 & K3 & _).
    apply wp_bind, (wp_rKeyLen _ _ _ _ K2).
    assert (Kof : key_of F k c <-> b = k).
    { unfold key_of. split; [intros (g & G3 & G4); congruence|]. intros ->. exists fc. auto. }
    destruct (N.eqb_spec (lenN k) (lenN b)) as [El|Nl]; cbn [negb].
    + apply wp_bind. unfold load_w. apply wp_bind. rewrite K1. apply wp_deref.
      apply (wp_load p _ b); auto. apply wp_bind, (wp_load key _ k); auto. apply wp_ret. split; auto. rewrite Kof.
      unfold zj_strIsEqualLen. unfold lenN in El. rewrite El, N.eqb_refl. simpl. rewrite bytes_eqb_eq. split; congruence.
    + apply wp_ret. split; auto. rewrite Kof. split; [discriminate|]. intros ->. now elim Nl.
  - intros o s' [-> K]. eapply wp_mono; [apply zhandle_wp; auto; apply I|].
    intros r' s'' Hh. exists o. auto.
Qed.
Lemma zobjGet_no fuel key : ftype (fvalue f) <> TObject -> wp (z_obj_get fuel v key) s (fun r s' => r = None /\ s' = s).
Proof. intro E. eapply with_type_node; eauto. intros n E'. congruence. Qed.
Lemma zobjGetLen_no fuel key len : ftype (fvalue f) <> TObject -> wp (z_obj_get_len fuel v key len) s (fun r s' => r = None /\ s' = s).
Proof. intro E. eapply with_type_node; eauto. intros n E'. congruence. Qed.

Lemma zarrayGet_wp fuel kids index : fvalue f = VCont false kids -> index < two32 -> (length kids <= fuel)%nat ->
  wp (z_array_get fuel v index) s (new_zhandle s A (nth_error kids (N.to_nat index))).
Proof.
  intros Ev Hi Hf. pose proof H as (_ & [Al NA] & _). destruct (kids_chain s F a f I Fa false kids Ev) as [Hc _].
  unfold z_array_get. eapply with_type_node; eauto; [rewrite Ev; intro E; now elim E|].
  intros n _ Hn R. pose proof (r_val _ _ _ R) as Rv. rewrite Ev in Rv. destruct Rv as (_ & Ehd & _). rewrite Ehd.
  eapply wp_seq; [apply (nth_wp s F a false index I kids fuel 0); auto; lia|].
  intros o s' [-> ->]. rewrite N.sub_0_r. apply zhandle_wp; auto; apply I.
Qed.
Lemma zarrayGet_no fuel index : ftype (fvalue f) <> TArray -> wp (z_array_get fuel v index) s (fun r s' => r = None /\ s' = s).
Proof. intro E. eapply with_type_node; eauto. intros n E'. congruence. Qed.

Lemma zbegin_wp : wp (z_begin v) s (new_zhandle s A (hd_error (kids_of (fvalue f)))).
Proof.
  pose proof H as (_ & [Al NA] & _).
  unfold z_begin. apply wp_bind, (wp_getVal _ _ _ _ (proj1 H)). cbn [vN].
  apply wp_bind, wp_is_null with (b := false); auto. cbv iota. apply wp_bind, wp_deref.
  destruct (i_rep _ _ I a f Fa) as (n & Hn & R); [auto|].
  apply wp_bind, (wp_getNode _ n); auto. apply wp_bind, (wp_rType _ _ _ _ (rep_ftype _ _ _ R)).
  pose proof (r_val _ _ _ R) as Rv.
  destruct (fvalue f) as [| | | |[] ks]; cbn [ftype is_container jtype_eqb orb kids_of hd_error];
    try (apply wp_ret; split; auto); destruct Rv as (_ & -> & _); destruct ks as [|c ks]; cbn [hd_error wopt];
    try (apply wp_bind, wp_is_null with (b := true); auto; apply wp_ret; split; auto);
    (apply wp_bind, wp_is_null with (b := false); auto; cbv iota; apply wp_bind, wp_deref; apply zhandle_wp; auto; apply I).
Qed.
Lemma znext_wp : wp (z_next v) s (new_zhandle s A (fnext f)).
Proof.
  pose proof H as (_ & [Al NA] & _).
  unfold z_next. apply wp_bind, (wp_getVal _ _ _ _ (proj1 H)). cbn [vN].
  apply wp_bind, wp_is_null with (b := false); auto. cbv iota. apply wp_bind, wp_deref.
  destruct (i_rep _ _ I a f Fa) as (n & Hn & R); [auto|].
  apply wp_bind, (wp_getNode _ n); auto. rewrite (r_next _ _ _ R). destruct (fnext f) as [c|]; cbn [wopt].
  - apply wp_bind, wp_is_null with (b := false); auto. cbv iota. apply wp_bind, wp_deref. apply zhandle_wp; auto; apply I.
  - apply wp_bind, wp_is_null with (b := true); auto. apply wp_ret. split; auto.
Qed.
End Children.

Lemma zcopy_wp s F v a A j fuel f : inv s F -> handle s F v (At a) A -> F a = Some f -> reads F a j ->
  usedA s A + 120 + icost (fkey f, j) <= two30 -> (S (jsteps j) <= fuel)%nat ->
  wp (z_copy fuel v) s (fun r s' => exists h F' n, r = Some h /\ beyond s h /\ copied_node s F a j s' F' n /\
    svals s' h = Some (mkVal (At n) A) /\ (forall u, u <> h -> svals s' u = svals s u) /\
    ext none none (at_ A (120 + icost (fkey f, j))) s s').
Proof.
  intros I H Fa Hr Hu Hf. pose proof H as (Hv & [Al NA] & _). unfold z_copy.
  apply wp_bind, (wp_getVal _ _ _ _ Hv). cbn [vA vN]. apply wp_bind, wp_ret. cbv iota.
  eapply wp_seq; [eapply (newzval_step none none A 0 s s Null); auto; [apply I|apply ext_start, I|lia]|].
  intros h s1 (X1 & B1 & V1). cbn [N.add] in X1.
  assert (Nh : v <> h).
  { intros ->. pose proof (beyond_nothing s h (i_wf _ _ I) B1) as (_ & _ & E & _). congruence. }
  pose proof (x_used _ _ _ _ _ X1 A) as U. rewrite at_eq in U.
  eapply wp_seq.
  - eapply (valueCopyFrom_wp s1 F h Null A v a A j fuel); eauto.
    + eapply ext_inv; eauto.
    + split; [apply V1|]. split; [split; auto; now apply (x_alive _ _ _ _ _ X1)|auto].
    + rewrite (vn_neq _ _ _ _ V1); auto.
    + exists f. split; auto. lia.
  - intros r s' (-> & f' & F' & n & Fa' & C & Vh & Vo & X2). apply wp_ret.
    rewrite Fa in Fa'. injection Fa' as <-. exists h, F', n. split; auto. split; auto.
    split; [eapply copied_before; eauto|]. split; auto. split.
    + intros u Nu. rewrite Vo by auto. now apply (vn_neq _ _ _ _ V1).
    + eapply (ext_clean none (only h)).
      * eapply (ext_more none (only h) A (48 + (72 + icost (fkey f, j)))); [|lia].
        eapply ext_then; [|exact X2]. eapply ext_weaken; [exact X1|..]; auto; [intros ? []|intro; apply N.le_refl].
      * intros x y _ [].
      * intros u x E -> _. pose proof (beyond_nothing s h (i_wf _ _ I) B1) as (_ & _ & E' & _). congruence.
      * intro x. right. intros [].
      * intro x. unfold only. destruct (addr_eqb_spec x h); [left|right]; auto.
Qed.
Lemma zcopy_empty s F v A fuel : handle s F v Null A -> wp (z_copy fuel v) s (fun r s' => r = None /\ s' = s).
Proof.
  intros (Hv & _). unfold z_copy. apply wp_bind, (wp_getVal _ _ _ _ Hv). cbn [vN]. apply wp_bind, wp_ret. cbv iota. apply wp_ret. auto.
Qed.
Lemma zobjAdd_wp s F v a A vv b B j fa fb kids fuel : inv s F -> handle s F v (At a) A -> handle s F vv (At b) B ->
  addable F true a fa kids -> F b = Some fb -> fkey fb <> None -> reads F b j ->
  usedA s B + 120 + icost (fkey fb, j) <= two30 -> (S (jsteps j) <= fuel)%nat ->
  wp (z_obj_add fuel v vv) s (copy_added s F b B j (120 + icost (fkey fb, j))
    (fun F1 n F' => exists fn, F1 n = Some fn /\ appendable F1 true a n fa fn kids /\ F' = append F1 a n fa fn true kids)).
Proof.
  intros I Hv Hvv Ad Fb Kb Hr Hu Hf. pose proof (i_dom _ _ I) as Wd. pose proof (i_wf _ _ I) as W.
  unfold z_obj_add, when_type.
  match goal with |- wp _ _ ?Q => eapply wp_seq with (P := fun r s' => exists b0, r = Some b0 /\ Q b0 s') end.
  2:{ intros r s' (b0 & -> & K). now apply wp_ret. }
  eapply (with_type_node s F v A I a fa Hv (ad_a _ _ _ _ _ Ad)); [rewrite (ad_val _ _ _ _ _ Ad); intro K; now elim K|].
  intros m _ _ _. eapply wp_seq; [|intros b0 s' K; apply wp_ret; exists b0; split; [reflexivity|exact K]].
  unfold when_key.
  match goal with |- wp _ _ ?Q => eapply wp_seq with (P := fun r s' => exists b0, r = Some b0 /\ Q b0 s') end.
  2:{ intros r s' (b0 & -> & K). now apply wp_ret. }
  eapply (with_key_node s F vv B I b fb Hvv Fb); [congruence|].
  intros m' b' p _ _ _ _ _ _. eapply wp_seq; [|intros b0 s' K; apply wp_ret; exists b0; split; [reflexivity|exact K]].
  eapply wp_seq; [eapply (zcopy_wp s F vv b B j fuel fb); eauto|].
  intros r s1 (h & F1 & n & -> & Bh & C & Hh & O & X). cbv iota.
  apply wp_bind, (wp_getVal _ _ _ _ Hh). cbn [vN]. apply wp_bind, wp_deref.
  destruct (cp_root _ _ _ _ _ _ _ C) as (fb' & fn & E1 & E2 & E3 & E4 & E5 & E6). assert (fb' = fb) by congruence. subst fb'.
  assert (Ap : appendable F1 true a n fa fn kids).
  { destruct Ad. constructor; auto; [now apply (cp_sub _ _ _ _ _ _ _ C)|eapply copied_neq; eauto; congruence|congruence]. }
  eapply wp_seq; [eapply append_step; [apply C|exact Ap]|]. intros [] s2 (X2 & M2 & I2).
  apply wp_ret. split; auto. exists s1, F1, n, (append F1 a n fa fn true kids). split; auto. split; [eauto|]. split; auto.
  split; [|eapply copy_ext; eauto].
  intros u x Hx. rewrite (mc_vals _ _ M2). apply (x_vals _ _ _ _ _ X); auto.
Qed.
Lemma zarrayAdd_wp s F v a A vv b B j fa fb kids fuel : inv s F -> handle s F v (At a) A -> handle s F vv (At b) B ->
  addable F false a fa kids -> F b = Some fb -> reads F b j ->
  usedA s B + 120 + icost (fkey fb, j) <= two30 -> (S (jsteps j) <= fuel)%nat ->
  wp (z_array_add fuel v vv) s (copy_added s F b B j (120 + icost (fkey fb, j))
    (fun F1 n F' => exists fn, F1 n = Some fn /\ appendable (dropkey F1 n) false a n fa (nokey fn) kids /\
       F' = append (dropkey F1 n) a n fa (nokey fn) false kids)).
Proof.
  intros I Hv Hvv Ad Fb Hr Hu Hf. pose proof (i_dom _ _ I) as Wd. pose proof (i_wf _ _ I) as W.
  unfold z_array_add, when_type.
  match goal with |- wp _ _ ?Q => eapply wp_seq with (P := fun r s' => exists b0, r = Some b0 /\ Q b0 s') end.
  2:{ intros r s' (b0 & -> & K). now apply wp_ret. }
  eapply (with_type_node s F v A I a fa Hv (ad_a _ _ _ _ _ Ad)); [rewrite (ad_val _ _ _ _ _ Ad); intro K; now elim K|].
  intros m _ _ _. eapply wp_seq; [|intros b0 s' K; apply wp_ret; exists b0; split; [reflexivity|exact K]].
  eapply wp_seq; [eapply (zcopy_wp s F vv b B j fuel fb); eauto|].
  intros r s1 (h & F1 & n & -> & Bh & C & Hh & O & X). cbv iota.
  apply wp_bind, (wp_getVal _ _ _ _ Hh). cbn [vN]. apply wp_bind, wp_deref.
  destruct (cp_root _ _ _ _ _ _ _ C) as (fb' & fn & E1 & E2 & E3 & E4 & E5 & E6). assert (fb' = fb) by congruence. subst fb'.
  pose proof (cp_inv _ _ _ _ _ _ _ C) as I1.
  assert (X1' : ext (inF F1) none zeroc s1 s1) by apply ext_refl, I1.
  assert (Nan : a <> n) by (apply (copied_neq s F b j s1 F1 n a I C); pose proof (ad_a _ _ _ _ _ Ad); congruence).
  eapply wp_seq; [eapply (dropkey_wp F1 n fn (i_dom _ _ I1) E2 E4 s1 (inF F1) zeroc s1); auto; unfold inF; congruence|].
  intros [] s2 (X2 & M2 & I2).
  assert (Ap : appendable (dropkey F1 n) false a n fa (nokey fn) kids).
  { destruct Ad. constructor; auto; [rewrite dropkey_other by auto; now apply (cp_sub _ _ _ _ _ _ _ C)|now apply dropkey_at]. }
  eapply wp_seq; [eapply append_step; [exact I2|exact Ap]|]. intros [] s3 (X3 & M3 & I3).
  apply wp_ret. split; auto. exists s1, F1, n, (append (dropkey F1 n) a n fa (nokey fn) false kids). split; auto. split; [eauto|]. split; auto.
  split.
  - intros u x Hx. rewrite (mc_vals _ _ M3), (mc_vals _ _ M2). apply (x_vals _ _ _ _ _ X); auto.
  - eapply copy_ext; eauto. apply (ext_chain0 _ _ s1 s2); auto. eapply ext_wide; [exact X3| |auto].
    intros x Hx. unfold inF in *. intro K. apply Hx. unfold dropkey. rewrite K. now destruct (addr_eqb x n).
Qed.

(** ** The key taken over by z_ValueSet and z_ValueSetFast *)
Definition newkey (F : dom) (a : addr) (fa fb : fnode) : dom :=
  match fkey fa, fkey fb with Some _, Some k => add F a (setkey k fa) | _, _ => F end.
Definition rekeyed (fa fb : fnode) : fnode :=
  match fkey fa, fkey fb with Some _, Some k => setkey k fa | _, _ => fa end.
Lemma newkey_at F a fa fb : F a = Some fa -> newkey F a fa fb a = Some (rekeyed fa fb).
Proof. intro E. unfold newkey, rekeyed. destruct (fkey fa), (fkey fb); auto. apply add_eq. Qed.
Lemma newkey_other F a fa fb x : x <> a -> newkey F a fa fb x = F x.
Proof. intro N. unfold newkey. destruct (fkey fa), (fkey fb); auto. now apply add_neq. Qed.
Lemma newkey_in F a fa fb x : F a = Some fa -> newkey F a fa fb x <> None -> F x <> None.
Proof. intros E H. destruct (addr_eqb_spec x a) as [->|N]; [congruence|]. now rewrite newkey_other in H. Qed.
Lemma setkey_wfdom' F a f k : wfdom F -> F a = Some f -> fkey f <> None -> wfdom (add F a (setkey k f)).
Proof.
  intros D Ha Hk.
  assert (C : forall y ob l, chain F y ob l -> chain (add F a (setkey k f)) y ob l).
  { intros y ob l. induction l as [|c l IH]; cbn [chain]; auto. intros [(fc & H1 & H2 & H3 & H4) H]. split; [|auto].
    destruct (addr_eqb_spec c a) as [->|N].
    - exists (setkey k f). split; [apply add_eq|]. assert (fc = f) by congruence. subst fc. cbn. repeat split; auto. destruct ob; [discriminate|contradiction].
    - exists fc. rewrite add_neq by auto. auto. }
  intros x g Hx. destruct (addr_eqb_spec x a) as [->|N].
  - rewrite add_eq in Hx. injection Hx as <-. destruct (D a f Ha) as [D1 D2]. split; [|exact D2]. intros ob kids E. destruct (D1 ob kids E). auto.
  - rewrite add_neq in Hx by auto. destruct (D x g Hx) as [D1 D2]. split; [|exact D2]. intros ob kids E. destruct (D1 ob kids E). auto.
Qed.
Lemma take_key_wp s F a g b fa fg fb : inv s F -> F a = Some fa -> F g = Some fg -> F b = Some fb -> fkey fg = fkey fb ->
  wp (take_key a g b) s (fun _ s' => ext (inF F) none zeroc s s' /\ mch s s' /\ inv s' (newkey F a fa fb)).
Proof.
  intros I Fa Fg Fb Ek. unfold take_key.
  destruct (i_rep _ _ I a fa Fa) as (n & Hn & Ra); [auto|]. destruct (i_rep _ _ I g fg Fg) as (m & Hm & Rg); [auto|]. destruct (i_rep _ _ I b fb Fb) as (q & Hq & Rb); [auto|].
  apply wp_bind, (wp_getNode _ n); auto. pose proof (r_key _ _ _ Ra) as Ka. pose proof (r_key _ _ _ Rg) as Kg. pose proof (r_key _ _ _ Rb) as Kb. unfold newkey.
  assert (Same : ext (inF F) none zeroc s s /\ mch s s /\ inv s F) by (split; [apply ext_refl, I|split; [apply mch_refl|auto]]).
  destruct (fkey fa) as [ka|] eqn:Ka0.
  2:{ apply wp_bind, (wp_is_null _ true); [now rewrite Ka|]. cbv iota. apply wp_ret. exact Same. }
  destruct Ka as (pa & Ka & _). apply wp_bind, (wp_is_null _ false); [now rewrite Ka|]. cbv iota.
  apply wp_bind, (wp_getNode _ m); auto. rewrite Ek in Kg. destruct (fkey fb) as [k|].
  2:{ apply wp_bind, (wp_is_null _ true); [now rewrite Kg|]. cbv iota. apply wp_ret. exact Same. }
  destruct Kg as (pg & Kg & _). apply wp_bind, (wp_is_null _ false); [now rewrite Kg|]. cbv iota.
  apply wp_bind, (wp_getNode _ q); auto. destruct Kb as (p & K1 & K2 & K3). rewrite K1.
  assert (X0 : ext (only a) none zeroc s s) by apply ext_refl, I.
  eapply wp_seq; [eapply (modNode_step (only a) none zeroc s s a); [exact X0|exact Hn|right; reflexivity|apply I]|]. intros [] s1 [X1 U1].
  apply wp_bind, (wp_rKeyLen _ _ _ _ K2).
  eapply wp_mono; [eapply (modNode_step (only a) none zeroc s s1 a); [exact X1|apply U1|right; reflexivity|apply I]|]. intros [] s2 [X2 U2].
  assert (U := nupd_trans _ _ _ _ _ _ U1 U2). pose proof (nu_mch _ _ _ _ U) as Mc.
  split; [eapply ext_wide; [exact X2|intros x ->; unfold inF; congruence|auto]|]. split; [apply U|].
  eapply (inv_relink (only a) zeroc s s2 F); [exact I|exact X2|apply U|..].
  - intros x f' Hx. destruct (addr_eqb_spec x a) as [->|N]; [eauto|]. rewrite add_neq in Hx by auto. eauto.
  - intros x f' Hx. destruct (addr_eqb_spec x a) as [->|N].
    + right. rewrite add_eq in Hx. injection Hx as <-. eexists. split; [apply U|]. destruct Ra. constructor; auto. exists p. auto.
    + left. rewrite add_neq in Hx by auto. split; auto. now apply U.
  - apply setkey_wfdom'; auto; [apply I|congruence].
Qed.
Lemma newkey_takable F a b fa fb : takable F a b fa fb -> takable (newkey F a fa fb) a b (rekeyed fa fb) fb.
Proof.
  intros []. constructor; auto; [now apply newkey_at|]. now rewrite newkey_other by auto.
Qed.
Lemma zsetFast_wp s F v a A vv b B F1 fa fb fuel : inv s F -> handle s F v (At a) A -> handle s F vv (At b) B ->
  removed F b F1 -> takable F1 a b fa fb -> (length (kids_in (fvalue fb)) <= fuel)%nat ->
  wp (z_set_fast fuel v vv) s (stolen s F v vv (At a) A B (take (newkey F1 a fa fb) a b (rekeyed fa fb) fb (fend fb))).
Proof.
  intros I Hv Hvv R Tk Hf. pose proof (i_dom _ _ I) as Wd. pose proof (i_wf _ _ I) as W.
  assert (Nv : v <> vv).
  { intros ->. apply (tb_neq _ _ _ _ _ Tk). destruct Hv as [E1 _], Hvv as [E2 _]. congruence. }
  unfold z_set_fast. eapply wp_seq; [eapply (move_wp s F vv b B F1); eauto|]. intros r s1 (-> & I1 & M1 & X1). cbn [negb]. cbv iota.
  pose proof (mc_vals _ _ M1) as V1.
  eapply wp_bind, wp_getVal; [rewrite V1; apply Hv|]. cbn [vN vA]. apply wp_bind, wp_ret. cbv iota. apply wp_bind, wp_deref.
  eapply wp_bind, wp_getVal; [rewrite V1; apply Hvv|]. cbn [vN vA]. apply wp_bind, wp_deref.
  eapply wp_seq; [eapply (take_key_wp s1 F1 a b b fa fb fb); auto; apply Tk|]. intros [] s1' (Xk & Mk & Ik).
  pose proof (newkey_takable _ _ _ _ _ Tk) as Tk'. rewrite <- (mc_vals _ _ Mk) in V1.
  eapply wp_seq; [eapply (take_step s1' (newkey F1 a fa fb) a b (rekeyed fa fb) fb b (fend fb)); eauto; rewrite (tb_b _ _ _ _ _ Tk'); discriminate|].
  intros [] s2 (X2 & M2 & I2). pose proof (mc_vals _ _ M2) as V2.
  eapply wp_seq; [eapply put_val; eauto; rewrite V2, V1; apply Hvv|]. intros [] s3 (I3 & E3 & O3 & X3).
  apply wp_ret. split; auto. split; auto. split; auto. split; [rewrite O3 by auto; rewrite V2, V1; apply Hv|].
  split; [intros u Hu _; rewrite O3 by auto; congruence|].
  apply (ext_chain0 _ _ s s1); [eapply ext_wide; [exact X1|auto|intros x []]|].
  apply (ext_chain0 _ _ s1 s1'); [eapply ext_wide; [exact Xk|intros x; eapply inF_removed; eauto|intros x []]|].
  apply (ext_chain0 _ _ s1' s2); [eapply ext_wide; [exact X2|intros x Hx; eapply inF_removed; eauto; unfold inF in *; eapply newkey_in; eauto; apply Tk|intros x []]|].
  eapply ext_wide; [exact X3|intros x []|intros x ->; auto].
Qed.
Lemma zsetFast_into s F v A vv b B F1 fuel : inv s F -> handle s F v Null A -> handle s F vv (At b) B -> removed F b F1 ->
  wp (z_set_fast fuel v vv) s (stolen s F v vv (At b) A B F1).
Proof.
  intros I Hv Hvv R. pose proof (i_dom _ _ I) as Wd. pose proof (i_wf _ _ I) as W.
  assert (Nv : v <> vv).
  { intros ->. destruct Hv as [E1 _], Hvv as [E2 _]. congruence. }
  unfold z_set_fast. eapply wp_seq; [eapply (move_wp s F vv b B F1); eauto|]. intros r s1 (-> & I1 & M1 & X1). cbn [negb]. cbv iota.
  pose proof (mc_vals _ _ M1) as V1.
  eapply wp_bind, wp_getVal; [rewrite V1; apply Hv|]. cbn [vN vA]. apply wp_bind, wp_ret. cbv iota.
  eapply wp_bind, wp_getVal; [rewrite V1; apply Hvv|]. cbn [vN vA].
  eapply wp_seq; [eapply put_val; eauto; rewrite V1; apply Hv|]. intros [] s2 (I2 & E2 & O2 & X2).
  eapply wp_bind, wp_getVal; [rewrite O2, V1 by auto; apply Hvv|]. cbn [vN vA].
  eapply wp_seq; [eapply put_val; eauto; rewrite O2, V1 by auto; apply Hvv|]. intros [] s3 (I3 & E3 & O3 & X3).
  apply wp_ret. split; auto. split; auto. split; auto. split; [rewrite O3 by auto; auto|].
  split; [intros u Hu Hu2; rewrite O3, O2 by auto; congruence|].
  apply (ext_chain0 _ _ s s1); [eapply ext_wide; [exact X1|auto|intros x []]|].
  apply (ext_chain0 _ _ s1 s2); [eapply ext_wide; [exact X2|intros x []|intros x ->; auto]|].
  eapply ext_wide; [exact X3|intros x []|intros x ->; auto].
Qed.
Lemma zsetFast_empty s F v vv B fuel : handle s F vv Null B -> wp (z_set_fast fuel v vv) s (fun r s' => r = false /\ s' = s).
Proof. intro H. unfold z_set_fast. eapply wp_seq; [eapply move_empty; eauto|]. intros r s' [-> ->]. now apply wp_ret. Qed.
Lemma zset_wp s F v a A vv b B fa fb j fuel : inv s F -> handle s F v (At a) A -> handle s F vv (At b) B ->
  F a = Some fa -> F b = Some fb -> reads F b j ->
  usedA s B + 120 + icost (fkey fb, j) <= two30 -> (S (jsteps j) <= fuel)%nat ->
  (length (kids_in (fvalue fb)) <= fuel)%nat ->
  wp (z_set fuel v vv) s (copy_added s F b B j (120 + icost (fkey fb, j))
    (fun F1 n F' => exists fn, F1 n = Some fn /\ takable F1 a n fa fn /\ F' = take (newkey F1 a fa fn) a n (rekeyed fa fn) fn None)).
Proof.
  intros I Hv Hvv Fa Fb Hr Hu Hf Hf2. pose proof (i_dom _ _ I) as Wd. pose proof (i_wf _ _ I) as W.
  unfold z_set. eapply wp_seq; [eapply (zcopy_wp s F vv b B j fuel fb); eauto|].
  intros r s1 (h & F1 & n & -> & Bh & C & Hh & O & X). cbv iota.
  apply wp_bind, (wp_getVal _ _ _ _ Hh). cbn [vN].
  assert (Hold : forall u x, svals s u = Some x -> svals s1 u = Some x) by (intros u x Hx; apply (x_vals _ _ _ _ _ X); auto).
  eapply wp_bind, wp_getVal; [apply Hold; apply Hv|]. cbn [vN vA]. apply wp_bind, wp_ret. cbv iota.
  apply wp_bind, wp_deref. apply wp_bind, wp_deref.
  eapply wp_bind, wp_getVal; [apply Hold; apply Hvv|]. cbn [vN vA]. apply wp_bind, wp_deref.
  destruct (cp_root _ _ _ _ _ _ _ C) as (fb' & fn & E1 & E2 & E3 & E4 & E5 & E6). assert (fb' = fb) by congruence. subst fb'.
  pose proof (cp_inv _ _ _ _ _ _ _ C) as I1.
  assert (Nan : a <> n) by (apply (copied_neq s F b j s1 F1 n a I C); congruence).
  assert (Tk : takable F1 a n fa fn).
  { constructor; auto; [now apply (cp_sub _ _ _ _ _ _ _ C)|]. intro K. unfold kids_in in K.
    destruct (fvalue fn) as [| | | |ob kids] eqn:V; try destruct K.
    assert (F a = None); [|congruence]. eapply (cp_closed _ _ _ _ _ _ _ C n fn ob kids a); eauto.
    eapply inv_beyond; eauto. apply C. }
  eapply wp_seq; [eapply (take_key_wp s1 F1 a b n fa fb fn); auto; [apply Tk|exact (cp_sub _ _ _ _ _ _ _ C b fb Fb)]|]. intros [] s1' (Xk & Mk & Ik).
  pose proof (newkey_takable _ _ _ _ _ Tk) as Tk'. assert (Nb : b <> n) by (apply (copied_neq s F b j s1 F1 n b I C); congruence).
  eapply wp_seq; [eapply (take_step s1' (newkey F1 a fa fn) a n (rekeyed fa fn) fn b None); eauto|].
  - destruct (addr_eqb_spec b a) as [->|Nba]; [rewrite (newkey_at F1 a fa fn (tb_a _ _ _ _ _ Tk)); discriminate|]. rewrite newkey_other by auto. rewrite (cp_sub _ _ _ _ _ _ _ C b fb Fb). discriminate.
  - (* as many children as the original *)
    pose proof (cp_reads _ _ _ _ _ _ _ C) as Rn. clear - Rn Hr E2 Fb Hf2.
    assert (E : length (kids_in (fvalue fn)) = length (kids_in (fvalue fb))); [|congruence].
    rewrite (reads_kids _ _ _ _ Rn E2), (reads_kids _ _ _ _ Hr Fb). reflexivity.
  - intros [] s2 (X2 & M2 & I2). apply wp_ret. split; auto. exists s1, F1, n, (take (newkey F1 a fa fn) a n (rekeyed fa fn) fn None).
    split; auto. split; [eauto|]. split; auto.
    split; [intros u x Hx; rewrite (mc_vals _ _ M2), (mc_vals _ _ Mk); auto|]. eapply copy_ext; eauto.
    apply (ext_chain0 _ _ s1 s1'); auto. eapply ext_wide; [exact X2|intros x Hx; unfold inF in *; exact (newkey_in F1 a fa fn x (tb_a _ _ _ _ _ Tk) Hx)|auto].
Qed.
Lemma zset_empty s F v vv B fuel : handle s F vv Null B -> wp (z_set fuel v vv) s (fun r s' => r = false /\ s' = s).
Proof. intro H. unfold z_set. eapply wp_seq; [eapply zcopy_empty; eauto|]. intros r s' (-> & ->). now apply wp_ret. Qed.
Lemma zadd_type_no s F v vv A w fuel : inv s F -> handle s F v w A -> (forall a f, w = At a -> F a = Some f -> ftype (fvalue f) <> TObject) ->
  wp (z_obj_add fuel v vv) s (refused s).
Proof. intros I H N. eapply when_type_no; eauto. Qed.
Lemma zarrayAdd_type_no s F v vv A w fuel : inv s F -> handle s F v w A -> (forall a f, w = At a -> F a = Some f -> ftype (fvalue f) <> TArray) ->
  wp (z_array_add fuel v vv) s (refused s).
Proof. intros I H N. eapply when_type_no; eauto. Qed.
Lemma zadd_key_no s F v vv A B a f w fuel : inv s F -> handle s F v (At a) A -> F a = Some f -> ftype (fvalue f) = TObject ->
  handle s F vv w B -> (forall b fb, w = At b -> F b = Some fb -> fkey fb = None) -> wp (z_obj_add fuel v vv) s (refused s).
Proof. intros I H Fa Ht H2 N. eapply when_type_yes; eauto. eapply when_key_no; eauto. Qed.
Lemma zarrayAdd_empty s F v vv A B a f fuel : inv s F -> handle s F v (At a) A -> F a = Some f -> ftype (fvalue f) = TArray -> handle s F vv Null B ->
  wp (z_array_add fuel v vv) s (refused s).
Proof.
  intros I H Fa Ht H2. eapply when_type_yes; eauto. eapply wp_seq; [eapply (zcopy_empty s F vv B fuel); eauto|].
  intros r s' (-> & ->). now apply wp_ret.
Qed.
Lemma zset_into s F v A vv b B fb j fuel : inv s F -> handle s F v Null A -> handle s F vv (At b) B ->
  F b = Some fb -> reads F b j ->
  usedA s B + 120 + icost (fkey fb, j) <= two30 -> (S (jsteps j) <= fuel)%nat ->
  wp (z_set fuel v vv) s (fun r s' => r = true /\ exists s1 F1 n, copied_node s F b j s1 F1 n /\ inv s' F1 /\
    svals s' v = Some (mkVal (At n) A) /\ (forall u x, u <> v -> svals s u = Some x -> svals s' u = Some x) /\
    ext none (only v) (at_ B (120 + icost (fkey fb, j))) s s').
Proof.
  intros I Hv Hvv Fb Hr Hu Hf. pose proof (i_dom _ _ I) as Wd. pose proof (i_wf _ _ I) as W.
  unfold z_set. eapply wp_seq; [eapply (zcopy_wp s F vv b B j fuel fb); eauto|].
  intros r s1 (h & F1 & n & -> & Bh & C & Hh & O & X). cbv iota.
  apply wp_bind, (wp_getVal _ _ _ _ Hh). cbn [vN].
  assert (Hold : forall u x, svals s u = Some x -> svals s1 u = Some x) by (intros u x Hx; apply (x_vals _ _ _ _ _ X); auto).
  eapply wp_bind, wp_getVal; [apply Hold; apply Hv|]. cbn [vN vA]. apply wp_bind, wp_ret. cbv iota.
  pose proof (cp_inv _ _ _ _ _ _ _ C) as I1.
  eapply wp_seq; [eapply put_val; eauto; apply Hold; apply Hv|]. intros [] s2 (I2 & E2 & O2 & X2).
  apply wp_ret. split; auto. exists s1, F1, n. split; auto. split; auto. split; auto. split.
  - intros u x Hu' Hx. rewrite O2 by auto. auto.
  - eapply (ext_weaken none (only v) (addc (at_ B (120 + icost (fkey fb, j))) zeroc)); [eapply ext_trans; [eapply ext_wide; [exact X|auto|intros x []]|exact X2]|auto|auto|].
    intro y. unfold addc, zeroc. rewrite N.add_0_r. apply N.le_refl.
Qed.
Definition zdeleted (s : st) (F : dom) (A : N) (o : option addr) (F1 : dom) (r : bool) (s' : st) : Prop :=
  match o with
  | None => r = false /\ s' = s
  | Some _ => r = true /\ inv s' F1 /\ (forall u x, svals s u = Some x -> svals s' u = Some x) /\ ext (inF F) none (at_ A 48) s s'
  end.
Lemma zmove_new s F A o d s1 F1 : inv s F -> alive s A -> ~ isvol A -> (forall c, o = Some c -> F c <> None /\ removed F c F1) ->
  new_zhandle s A o d s1 ->
  wp (match d with None => ret false | Some h => zj_Move h end) s1 (zdeleted s F A o F1).
Proof.
  intros I Al NA R H. destruct o as [c|]; cbn [new_zhandle] in H.
  - destruct H as (h & -> & Bh & Vn & X). destruct (R c eq_refl) as [Fc Rm].
    assert (I1 : inv s1 F) by (eapply ext_inv; eauto).
    assert (Hh : handle s1 F h (At c) A).
    { split; [apply Vn|]. split; [split; auto; now apply (x_alive _ _ _ _ _ X)|]. right. eauto. }
    eapply wp_mono; [eapply (move_wp s1 F h c A F1); eauto|]. intros r s2 (-> & I2 & M2 & X2).
    split; auto. split; auto. split.
    + intros u x Hx. rewrite (mc_vals _ _ M2). apply (x_vals _ _ _ _ _ X); auto.
    + eapply (ext_weaken (inF F) none (addc (at_ A 48) zeroc)); [eapply ext_trans; [eapply ext_wide; [exact X|intros x []|auto]|exact X2]|auto|auto|].
      intro y. unfold addc, zeroc. rewrite N.add_0_r. apply N.le_refl.
  - destruct H as [-> ->]. now apply wp_ret.
Qed.
Lemma zarrayDel_wp s F v a A fa kids index fuel F1 : inv s F -> handle s F v (At a) A -> F a = Some fa -> fvalue fa = VCont false kids ->
  usedA s A + 48 <= two30 -> index < two32 -> (length kids <= fuel)%nat ->
  (forall c, nth_error kids (N.to_nat index) = Some c -> removed F c F1) ->
  wp (z_array_del fuel v index) s (zdeleted s F A (nth_error kids (N.to_nat index)) F1).
Proof.
  intros I H Fa V Hu Hi Hf R. pose proof H as (_ & [Al NA] & _). unfold z_array_del.
  eapply wp_seq; [eapply (zarrayGet_wp s F v A a fa I H Fa Hu fuel kids index); auto|].
  intros d s1 K. eapply zmove_new; eauto. intros c Hc. split; auto.
  destruct (i_dom _ _ I a fa Fa) as [D _]. destruct (D _ _ V) as [C _]. apply nth_error_In in Hc.
  destruct (chain_in _ _ _ _ _ C Hc) as (g & E & _). congruence.
Qed.
Lemma zobjDel_wp s F v a A fa kids key k r fuel F1 : inv s F -> handle s F v (At a) A -> F a = Some fa -> fvalue fa = VCont true kids ->
  usedA s A + 48 <= two30 -> text_at s key = k ++ 0 :: r -> ~ In 0 k ->
  (forall c fc b, In c kids -> F c = Some fc -> fkey fc = Some b -> ~ In 0 b) -> (length kids <= fuel)%nat ->
  (forall c, first_child (key_of F k) kids (Some c) -> removed F c F1) ->
  wp (z_obj_del fuel v key) s (fun b s' => exists o, first_child (key_of F k) kids o /\ zdeleted s F A o F1 b s').
Proof.
  intros I H Fa V Hu Ht N0 Hk Hf R. pose proof H as (_ & [Al NA] & _). unfold z_obj_del.
  eapply wp_seq; [eapply (zobjGet_wp s F v A a fa I H Fa Hu fuel kids key k r); auto|].
  intros d s1 (o & Fo & K). eapply wp_mono; [eapply (zmove_new s F A o d s1 F1); eauto|].
  - intros c ->. split; auto. destruct Fo as (pre & post & E & (fc & Ec & _) & _). congruence.
  - intros b s' Hb. eauto.
Qed.
Lemma zarrayDel_no s F v w A index fuel : inv s F -> handle s F v w A -> (forall a f, w = At a -> F a = Some f -> ftype (fvalue f) <> TArray) ->
  wp (z_array_del fuel v index) s (fun r s' => r = false /\ s' = s).
Proof.
  intros I H N. unfold z_array_del. eapply wp_seq with (P := fun d s' => d = None /\ s' = s); [|intros d s' [-> ->]; now apply wp_ret].
  pose proof H as (_ & _ & [->|(a & -> & Fa)]); [unfold z_array_get; eapply with_type_empty; eauto|].
  destruct (F a) as [f|] eqn:E; [|congruence]. eapply zarrayGet_no; eauto.
Qed.
Lemma zobjDel_no s F v w A key fuel : inv s F -> handle s F v w A -> (forall a f, w = At a -> F a = Some f -> ftype (fvalue f) <> TObject) ->
  wp (z_obj_del fuel v key) s (fun r s' => r = false /\ s' = s).
Proof.
  intros I H N. unfold z_obj_del. eapply wp_seq with (P := fun d s' => d = None /\ s' = s); [|intros d s' [-> ->]; now apply wp_ret].
  pose proof H as (_ & _ & [->|(a & -> & Fa)]); [unfold z_obj_get; eapply with_type_empty; eauto|].
  destruct (F a) as [f|] eqn:E; [|congruence]. eapply zobjGet_no; eauto.
Qed.
End WithVol.
