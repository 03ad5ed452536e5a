(** Numbers of parsed documents: after a successful parse every number of the
    document is followed in memory by a byte that cannot continue it, so the
    getters that read in place are exact on all of them. *)
From Verif Require Import Base Spec Lex LexProofs Alloc AllocProofs Mem MemProofs Api PureParse SpecProofs
  Dom Effect Steps StringifyProofs ParseProofs ParseTop GetProofs Vocab ParseFacts ReadFacts Double DoubleProofs DoubleFacts.

(** ** A program that goes to a position of a document *)
(** [i] times the next sibling *)
Fixpoint nexts (i : nat) (h : addr) : M addr :=
  match i with
  | O => ret h
  | S i' => x <- zj_Next h ;; h' <- deref (wopt x) ;; nexts i' h'
  end.
(** The handle of the value at position [p] below [v], by zj_Begin and zj_Next. *)
Fixpoint reach (p : list nat) (v : addr) : M addr :=
  match p with
  | [] => ret v
  | i :: p' => x <- zj_Begin v ;; h <- deref (wopt x) ;; h' <- nexts i h ;; reach p' h'
  end.
(** The memory the handles take. *)
Fixpoint reach_cost (p : list nat) : N :=
  match p with [] => 0 | i :: p' => 16 * (N.of_nat i + 1) + reach_cost p' end.

Lemma stops_ends x : stops x -> ends x.
Proof. unfold stops, ends, is_ws, is_digit. lia. Qed.
Lemma jget_path F p : forall a j jb, reads F a j -> jget p j = Some jb -> exists b, path F a p b /\ reads F b jb.
Proof.
  induction p as [|i p IH]; intros a j jb R E.
  - injection E as <-. exists a. split; [constructor|auto].
  - inversion R as [| | | |a0 f ob kids its Fa Ev Rl]; subst; try discriminate.
    rewrite jget_container in E. destruct (nth_error its i) as [x|] eqn:Ei; [|discriminate].
    destruct (nth_error kids i) as [c|] eqn:Ek.
    + destruct (readsL_nth _ _ _ Rl i c Ek) as (fc & jc & F1 & F2 & F3). rewrite F2 in Ei. injection Ei as <-.
      destruct (IH c jc jb F3 E) as (b & P & Rb). exists b. split; auto. econstructor; eauto.
    + apply nth_error_None in Ek. assert (nth_error its i <> None) as K by congruence. apply nth_error_Some in K.
      rewrite (readsL_length _ _ _ Rl) in Ek. lia.
Qed.

Section WithVol.
Context {VV : vols}.

Lemma nexts_wp F A p ob : forall i c r d s h, inv s F -> chain F p ob (c :: r) -> nth_error (c :: r) i = Some d -> on s F h c A ->
  usedA s A + 16 * N.of_nat i <= two30 ->
  wp (nexts i h) s (fun h' s' => on s' F h' d A /\ ext none none (at_ A (16 * N.of_nat i)) s s').
Proof.
  induction i as [|i IH]; intros c r d s h I Hc Hd Hh Hu; cbn [nexts].
  - injection Hd as <-. apply wp_ret. split; auto. replace (16 * N.of_nat 0) with 0 by lia. apply ext_start. apply I.
  - destruct r as [|c1 r]; [destruct i; discriminate|]. cbn [nth_error] in Hd.
    destruct Hc as [(fc & Fc & _ & Nx & _) Hc]. cbn [hd_error] in Nx.
    assert (F1 : F c1 <> None) by (destruct Hc as [(f1 & F1 & _) _]; congruence).
    eapply wp_seq; [apply (next_wp s F h A c fc I Hh Fc); unfold room; lia|].
    intros o s1. rewrite Nx. intros (h1 & -> & B & U & X). apply wp_bind, wp_deref.
    pose proof (ext_untouched _ _ _ _ I X) as [I1 U1].
    assert (On1 : on s1 F h1 c1 A).
    { split; [apply U|]. destruct (U1 _ _ _ Hh) as (_ & Al & _). split; auto. right. exists c1. split; auto. }
    pose proof (x_used _ _ _ _ _ X A) as Ua. rewrite at_eq in Ua.
    eapply wp_mono; [apply (IH c1 r d s1 h1); auto; lia|].
    intros h' s2 [O2 X2]. split; auto. eapply ext_more; [eapply ext_then; eauto|]. lia.
Qed.
Lemma reach_wp F A : forall p a b s v, inv s F -> path F a p b -> on s F v a A -> room s A (reach_cost p) ->
  wp (reach p v) s (fun h s' => on s' F h b A /\ ext none none (at_ A (reach_cost p)) s s').
Proof.
  induction p as [|i p IH]; intros a b s v I P H Hr; unfold room in *; cbn [reach reach_cost] in *.
  - inversion P; subst. apply wp_ret. split; auto. apply ext_start. apply I.
  - inversion P as [|a0 f ob kids i0 c p0 b0 Fa Ev Ei Pc]; subst.
    destruct (i_dom _ _ I a f Fa) as [D _]. destruct (D ob kids Ev) as [Ch _].
    destruct kids as [|k kids]; [destruct i; discriminate|].
    assert (Fk : F k <> None) by (destruct Ch as [(f1 & F1 & _) _]; congruence).
    eapply wp_seq; [apply (begin_wp s F v A a f I H Fa); unfold room; lia|].
    intros o s1. rewrite Ev. cbn [kids_of hd_error]. intros (h1 & -> & B & U & X). apply wp_bind, wp_deref.
    pose proof (ext_untouched _ _ _ _ I X) as [I1 U1].
    assert (On1 : on s1 F h1 k A).
    { split; [apply U|]. destruct (U1 _ _ _ H) as (_ & Al & _). split; auto. right. exists k. split; auto. }
    pose proof (x_used _ _ _ _ _ X A) as Ua. rewrite at_eq in Ua.
    eapply wp_seq; [apply (nexts_wp F A a ob i k kids c s1 h1); auto; lia|].
    intros h2 s2 [O2 X2]. pose proof (ext_untouched _ _ _ _ I1 X2) as [I2 _].
    pose proof (x_used _ _ _ _ _ X2 A) as Ub. rewrite at_eq in Ub.
    eapply wp_mono; [apply (IH c b s2 h2); auto; lia|].
    intros h' s3 [O3 X3]. split; auto. eapply ext_more; [eapply ext_then; [eapply ext_then; [exact X|exact X2]|exact X3]|]. lia.
Qed.

(** The nodes below a parsed value are new. *)
Lemma path_new s F v w A c j s' F' a : parsed s F v w A c j s' F' a -> forall p b, path F' a p b -> F b = None \/ b = a.
Proof.
  intros P p b H.
  assert (K : forall x q y, path F' x q y -> F x = None \/ x = a -> F y = None \/ y = a).
  { clear p b H. intros x q y H. induction H as [|x f ob kids i c0 q y H1 H2 H3 H IH]; auto.
    intro Hx. apply IH. left. eapply (pd_closed _ _ _ _ _ _ _ _ _ _ P); eauto. eapply nth_error_In; eauto. }
  eapply K; eauto.
Qed.

(** ** Parse, go to a number, read it *)
Section Read.
Context (m : M bool) (s : st) (F : dom) (v : addr) (w : word) (A k : N) (t slack : bytes) (j : json) (p : list nat) (b : bytes).
Hypothesis Ag : agree m s (ptop (t ++ 0 :: slack)) (pf_more (finished F) s F v w A k).
Hypothesis Hal : alive s A /\ ~ isvol A.
Hypothesis J : json_text t j.
Hypothesis Hp : jget p j = Some (JNum b).
Hypothesis Hr : room s A (k + reach_cost p + 8).

Lemma reach_number : exists s1 s2 h F' x f,
  (_ <- m ;; reach p v) s = Ok (h, s2) /\ m s = Ok (true, s1) /\ inv s2 F' /\ on s2 F' h x A /\ reads F' x (JNum b) /\ F' x = Some f /\ room s2 A 8 /\
  exists c, stops c /\ forall q n, zj_GetNumFast h s2 = Ok (Some (At q, n), s2) -> exists r, text_at s2 q = b ++ c :: r.
Proof.
  pose proof Ag as Ag'. rewrite (ptop_complete t j slack J) in Ag'. destruct Ag' as (b0 & s1 & E & -> & F' & a & P & Fin).
  destruct (jget_path F' p a j (JNum b) (pd_reads _ _ _ _ _ _ _ _ _ _ P) Hp) as (x & Px & Rx).
  pose proof (pd_ext _ _ _ _ _ _ _ _ _ _ P) as X1. pose proof (x_used _ _ _ _ _ X1 A) as U1. rewrite at_eq in U1.
  assert (O1 : on s1 F' v a A).
  { split; [apply P|]. split; [destruct Hal as [Al Nv]; split; auto; now apply (x_alive _ _ _ _ _ X1)|].
    right. exists a. split; auto. destruct (pd_root _ _ _ _ _ _ _ _ _ _ P) as (fa & Fa & _). congruence. }
  pose proof (pd_inv _ _ _ _ _ _ _ _ _ _ P) as I1. unfold room in Hr.
  destruct (reach_wp F' A p a x s1 v I1 Px O1) as (h & s2 & E2 & O2 & X2); [unfold room; lia|].
  pose proof (ext_untouched _ _ _ _ I1 X2) as [I2 _]. pose proof (x_used _ _ _ _ _ X2 A) as U2. rewrite at_eq in U2.
  inversion Rx as [| |x0 f t0 Fx Ev| |]; subst; [|destruct ob; discriminate].
  exists s1, s2, h, F', x, f. split; [unfold bind; rewrite E; exact E2|]. split; auto. split; auto. split; auto. split; auto. split; auto.
  split; [unfold room; lia|].
  destruct (i_rep _ _ I1 x f Fx) as (n & Hn & Rp); [auto|]. pose proof (r_val _ _ _ Rp) as Rv. rewrite Ev in Rv.
  destruct Rv as (T & El & q & Eq & _).
  destruct (Fin x f b n q Fx (path_new _ _ _ _ _ _ _ _ _ _ P _ _ Px) Ev Hn Eq) as (c & Hc & Sf).
  exists c. split; auto.
  assert (Hn2 : snodes s2 x = Some n) by (apply (x_nodes _ _ _ _ _ X2); auto).
  intros q' n' E3.
  assert (q' = q).
  { destruct O2 as (Hv2 & _). revert E3.
    unfold zj_GetNumFast, with_type, bind, getVal, getNode, get, rType, rLen, deref, is_null, wopt, ret.
    rewrite Hv2. cbn [vN vA]. rewrite Hn2, T. cbn. rewrite El, Eq. cbn. congruence. }
  subst q'. destruct (holds_text s2 q (b ++ [c])) as (r & Et); [apply I2| |].
  - apply (safetext_ext _ _ _ _ _ _ _ X2 Sf).
  - exists r. rewrite Et, <- app_assoc. reflexivity.
Qed.
Lemma read_long z : int_value b z -> (long_min <= z <= long_max)%Z -> lenN b <= 128 ->
  (exists s', (_ <- m ;; h <- reach p v ;; zj_GetLong h) s = Ok (Some z, s')) /\
  (exists s', (_ <- m ;; h <- reach p v ;; zj_GetLongLong h) s = Ok (Some z, s')).
Proof.
  intros Hz Rz Hl. destruct reach_number as (s1 & s2 & h & F' & x & f & E & Em & I2 & O2 & Rx & Fx & Hr2 & c & Hc & Ht).
  destruct (getLong_exact s2 F' h x A (JNum b) f I2 O2 Rx Fx b z c) as [(s3 & E3 & _) (s4 & E4 & _)]; auto.
  { apply (stops_ends c Hc). }
  unfold bind in E. rewrite Em in E. unfold bind. rewrite Em, E. eauto.
Qed.
Lemma read_double neg q : DoubleFacts.dec_value b neg q -> lenN b <= 128 ->
  exists d s', (_ <- m ;; h <- reach p v ;; zj_GetDouble h) s = Ok (Some d, s') /\ rounds neg q d.
Proof.
  intros Hz Hl. destruct reach_number as (s1 & s2 & h & F' & x & f & E & Em & I2 & O2 & Rx & Fx & Hr2 & c & Hc & Ht).
  destruct (getDouble_exact s2 F' h x A (JNum b) f I2 O2 Rx Fx b neg q c) as (d & s3 & E3 & Rd & _); auto.
  { apply (stops_ends c Hc). }
  unfold bind in E. rewrite Em in E. exists d, s3. unfold bind. rewrite Em, E. auto.
Qed.
End Read.

Section Calls.
Context (s : st) (F : dom) (v : addr) (w : word) (A : N).
Hypotheses (I : inv s F) (H : handle s F v w A).

Lemma parse_fin src t : cstring s src t -> room s A (len_cost (lenN t)) ->
  agree (zj_Parse v src) s (ptop (t ++ [0])) (pf_more (finished F) s F v w A (len_cost (lenN t))).
Proof. intros (N0 & sl & Ht) Hr. eapply parse_finished; eauto. Qed.
Lemma parsed_long src t j p b z : cstring s src t -> json_text t j -> jget p j = Some (JNum b) ->
  int_value b z -> (long_min <= z <= long_max)%Z -> lenN b <= 128 -> room s A (len_cost (lenN t) + reach_cost p + 8) ->
  (exists s', (_ <- zj_Parse v src ;; h <- reach p v ;; zj_GetLong h) s = Ok (Some z, s')) /\
  (exists s', (_ <- zj_Parse v src ;; h <- reach p v ;; zj_GetLongLong h) s = Ok (Some z, s')).
Proof.
  intros C J Hp Hz Rz Hl Hr. eapply (read_long (zj_Parse v src) s F v w A _ t [] j p b); eauto.
  - apply parse_fin; auto. unfold room in *. lia.
  - apply H.
Qed.
Lemma parsed_double src t j p b neg q : cstring s src t -> json_text t j -> jget p j = Some (JNum b) ->
  DoubleFacts.dec_value b neg q -> lenN b <= 128 -> room s A (len_cost (lenN t) + reach_cost p + 8) ->
  exists d s', (_ <- zj_Parse v src ;; h <- reach p v ;; zj_GetDouble h) s = Ok (Some d, s') /\ rounds neg q d.
Proof.
  intros C J Hp Hz Hl Hr. eapply (read_double (zj_Parse v src) s F v w A _ t [] j p b); eauto.
  - apply parse_fin; auto. unfold room in *. lia.
  - apply H.
Qed.
Lemma len_long src t j p b z : holds s src t -> json_text t j -> jget p j = Some (JNum b) ->
  int_value b z -> (long_min <= z <= long_max)%Z -> lenN b <= 128 -> room s A (len_cost (lenN t) + reach_cost p + 8) ->
  (exists s', (_ <- zj_ParseLen v src (lenN t) ;; h <- reach p v ;; zj_GetLong h) s = Ok (Some z, s')) /\
  (exists s', (_ <- zj_ParseLen v src (lenN t) ;; h <- reach p v ;; zj_GetLongLong h) s = Ok (Some z, s')).
Proof.
  intros C J Hp Hz Rz Hl Hr. eapply (read_long (zj_ParseLen v src (lenN t)) s F v w A _ t [] j p b); eauto.
  - apply parseLen_finished; auto. unfold room in *. lia.
  - apply H.
Qed.
Lemma len_double src t j p b neg q : holds s src t -> json_text t j -> jget p j = Some (JNum b) ->
  DoubleFacts.dec_value b neg q -> lenN b <= 128 -> room s A (len_cost (lenN t) + reach_cost p + 8) ->
  exists d s', (_ <- zj_ParseLen v src (lenN t) ;; h <- reach p v ;; zj_GetDouble h) s = Ok (Some d, s') /\ rounds neg q d.
Proof.
  intros C J Hp Hz Hl Hr. eapply (read_double (zj_ParseLen v src (lenN t)) s F v w A _ t [] j p b); eauto.
  - apply parseLen_finished; auto. unfold room in *. lia.
  - apply H.
Qed.
(** zj_ParseFast keeps pointers into the source: there the source must lie in
    memory the library does not write, with its terminator. *)
Lemma fast_long src t sl j p b z : text_at s src = t ++ 0 :: sl -> safetext s src (t ++ [0]) -> json_text t j -> jget p j = Some (JNum b) ->
  int_value b z -> (long_min <= z <= long_max)%Z -> lenN b <= 128 -> room s A (72 * (lenN t + 2) + reach_cost p + 8) ->
  (exists s', (_ <- zj_ParseFast v src ;; h <- reach p v ;; zj_GetLong h) s = Ok (Some z, s')) /\
  (exists s', (_ <- zj_ParseFast v src ;; h <- reach p v ;; zj_GetLongLong h) s = Ok (Some z, s')).
Proof.
  intros Ht Sf J Hp Hz Rz Hl Hr. eapply (read_long (zj_ParseFast v src) s F v w A _ t sl j p b); eauto.
  - eapply parseFast_finished; eauto. unfold room in *. lia.
  - apply H.
Qed.
Lemma fast_double src t sl j p b neg q : text_at s src = t ++ 0 :: sl -> safetext s src (t ++ [0]) -> json_text t j -> jget p j = Some (JNum b) ->
  DoubleFacts.dec_value b neg q -> lenN b <= 128 -> room s A (72 * (lenN t + 2) + reach_cost p + 8) ->
  exists d s', (_ <- zj_ParseFast v src ;; h <- reach p v ;; zj_GetDouble h) s = Ok (Some d, s') /\ rounds neg q d.
Proof.
  intros Ht Sf J Hp Hz Hl Hr. eapply (read_double (zj_ParseFast v src) s F v w A _ t sl j p b); eauto.
  - eapply parseFast_finished; eauto. unfold room in *. lia.
  - apply H.
Qed.
End Calls.
End WithVol.
