(** Stringify: the lemmas behind the properties. *)
From Verif Require Import Base Spec Lex LexProofs Alloc AllocProofs Mem MemProofs Api PureParse SpecProofs
  Dom Effect Steps SetProofs StringifyProofs ParseTop CopyProofs Vocab ParseFacts.

Lemma minify_len m t : (length (minify_from m t) <= length t)%nat.
Proof.
  revert m. induction t as [|c t IH]; intro m; cbn [minify_from length]; [lia|].
  destruct m.
  - destruct (_ || _ || _ || _); [specialize (IH Outside); lia|]. destruct (c =? 34); cbn [length].
    + specialize (IH InString). lia.
    + specialize (IH Outside). lia.
  - destruct (c =? 34); [|destruct (c =? 92)]; cbn [length]; match goal with |- context [minify_from ?x t] => specialize (IH x) end; lia.
  - cbn [length]. specialize (IH InString). lia.
Qed.
Definition print_cost (n : N) : N := 1048 + 4 * (n + 1).
(** [n] brackets around [j]. *)
Fixpoint nest (n : nat) (j : json) : json := match n with O => j | S k => JArr [nest k j] end.
Fixpoint nest_obj (n : nat) (k : bytes) (j : json) : json := match n with O => j | S m => JObj [(k, nest_obj m k j)] end.
Lemma nest_ok n j : json_ok j -> json_ok (nest n j).
Proof. intro H. induction n; cbn; auto. constructor. auto. Qed.
Lemma nest_obj_ok n k j : strbody k -> json_ok j -> json_ok (nest_obj n k j).
Proof. intros Hk H. induction n; cbn; auto. constructor. auto. Qed.
Lemma nest_print n j : print (nest n j) = repeat 91 n ++ print j ++ repeat 93 n.
Proof.
  induction n as [|n IH]; cbn [nest repeat app].
  - now rewrite app_nil_r.
  - change (print (JArr [nest n j])) with (91 :: print (nest n j) ++ [93]). rewrite IH, <- !app_assoc.
    do 3 f_equal. change (93 :: repeat 93 n) with (repeat 93 (S n)). symmetry. apply repeat_cons.
Qed.

Section WithVol.
Context {VV : vols}.

Lemma stringify_content s F v a A j : inv s F -> on s F v a A -> reads F a j -> room s A (print_cost (lenN (print j))) ->
  forall fuel, (jsteps j <= fuel)%nat -> exists w s', zj_Stringify fuel v s = Ok (w, s') /\ string_at s' w (print j) /\
    ext none none (at_ A (print_cost (lenN (print j)))) s s'.
Proof.
  intros I (Hv & [Al NA] & _) R Hr fuel Hf.
  destruct (stringify_wp F s v a A j fuel I Hv Al R Hf) as (w & s' & E & d & -> & H1 & H2 & H3 & X).
  { unfold room, print_cost in Hr. lia. }
  exists (At d), s'. split; auto. split; auto. exists d. auto.
Qed.

(** *** C05 *)
Lemma parse_stringify s F v w A src t : inv s F -> handle s F v w A -> cstring s src t -> valid t ->
  room s A (len_cost (lenN t) + print_cost (lenN t)) ->
  exists s1, zj_Parse v src s = Ok (true, s1) /\
    exists n, forall fuel, (n <= fuel)%nat -> exists p s2, zj_Stringify fuel v s1 = Ok (p, s2) /\ string_at s2 p (minify t).
Proof.
  intros I H C [j J] R.
  assert (R1 : room s A (len_cost (lenN t))) by (unfold room, print_cost in *; lia).
  pose proof (parse_ag s F v w A I H src t C R1) as Ag.
  destruct (ok_here _ s F v w A _ t [] Ag j J) as (s1 & F1 & a & E & P).
  exists s1. split; auto. exists (jsteps j). intros fuel Hf.
  pose proof (parsed_assigned _ _ _ _ _ _ _ _ _ _ I H P) as As.
  destruct H as (Hv & [Al NA] & Hw).
  assert (On : on s1 F1 v a A).
  { split; [apply P|]. split; [split; auto; apply (x_alive _ _ _ _ _ (pd_ext _ _ _ _ _ _ _ _ _ _ P)); auto|].
    right. exists a. split; auto. destruct (pd_root _ _ _ _ _ _ _ _ _ _ P) as (f' & Ef & _). congruence. }
  rewrite (minify_print t j J). assert (L : lenN (print j) <= lenN t).
  { rewrite <- (minify_print t j J). unfold lenN. pose proof (minify_len Outside t). unfold minify. lia. }
  pose proof (x_used _ _ _ _ _ (pd_ext _ _ _ _ _ _ _ _ _ _ P) A) as U. rewrite at_eq in U.
  destruct (stringify_content s1 F1 v a A j (pd_inv _ _ _ _ _ _ _ _ _ _ P) On (pd_reads _ _ _ _ _ _ _ _ _ _ P)) with (fuel := fuel)
    as (p & s2 & E2 & H2 & _); auto; [|eauto].
  unfold room, print_cost in *. lia.
Qed.

(** *** C06: any document, printed and parsed into any value *)
Lemma stringify_valid s F v a A j : inv s F -> on s F v a A -> reads F a j -> json_ok j -> room s A (print_cost (lenN (print j))) ->
  exists n, forall fuel, (n <= fuel)%nat -> exists p s', zj_Stringify fuel v s = Ok (p, s') /\ untouched s F s' /\
    string_at s' p (print j) /\ json_text (print j) j.
Proof.
  intros I H R J Hr. exists (jsteps j). intros fuel Hf.
  destruct (stringify_content s F v a A j I H R Hr fuel Hf) as (p & s' & E & S & X).
  exists p, s'. split; auto. split; [eapply ext_untouched; eauto|]. split; auto. now apply print_text.
Qed.
Lemma text_of_holds s d t : holds s d (t ++ [0]) -> wfst s -> ~ In 0 t -> cstring s d t.
Proof.
  intros H W N0. split; auto.
  assert (K : forall t, holds s d t -> exists r, text_at s d = t ++ r).
  { clear t N0 H. intros t H. unfold text_at. destruct t as [|x t]; [eexists; reflexivity|].
    pose proof (H 0%nat x eq_refl) as H0. destruct (w_bytes s W _ _ H0) as (n & En & Ln). cbn in En. rewrite En.
    assert (Ll : snd d + lenN (x :: t) <= n).
    { destruct (nth_error (x :: t) (length t)) as [y|] eqn:Ey; [|apply nth_error_None in Ey; cbn in Ey; lia].
      apply H in Ey. destruct (w_bytes s W _ _ Ey) as (n' & En' & Ln'). cbn in En', Ln'. replace n' with n in Ln' by congruence.
      unfold lenN. cbn [length]. lia. }
    assert (G : forall l o k, (length l <= k)%nat -> (forall i y, nth_error l i = Some y -> sbytes s (fst d, o + N.of_nat i) = Some y) ->
       exists r, run (sbytes s) (fst d) o k = l ++ r).
    { clear. induction l as [|y l IH]; intros o k Hk Hb; [eexists; reflexivity|]. destruct k as [|k]; [cbn in Hk; lia|].
      cbn [run]. pose proof (Hb 0%nat y eq_refl) as E. replace (o + N.of_nat 0) with o in E by lia. rewrite E.
      destruct (IH (o + 1) k) as (r & Er); [cbn in Hk; lia| |exists r; now rewrite Er].
      intros i z Ei. replace (o + 1 + N.of_nat i) with (o + N.of_nat (S i)) by lia. now apply Hb. }
    apply G; [unfold lenN in Ll; lia|]. intros i y E. apply H in E. exact E. }
  destruct (K _ H) as (r & Er). exists r. now rewrite <- app_assoc in Er.
Qed.
(** Printing a value and parsing the text into another value gives an equal value. *)
Lemma stringify_reparse s F v a A j u w B : inv s F -> on s F v a A -> reads F a j -> json_ok j -> handle s F u w B ->
  room s A (print_cost (lenN (print j)) + len_cost (lenN (print j))) ->
  room s B (print_cost (lenN (print j)) + len_cost (lenN (print j))) ->
  exists n, forall fuel, (n <= fuel)%nat -> exists p d s1 s2 F2, zj_Stringify fuel v s = Ok (p, s1) /\ p = At d /\
    zj_Parse u d s1 = Ok (true, s2) /\ assigned s1 F u w j s2 F2.
Proof.
  intros I H R J Hu Ra Rb. exists (jsteps j). intros fuel Hf.
  destruct (stringify_content s F v a A j I H R) with (fuel := fuel) as (p & s1 & E & (d & -> & S) & X); auto.
  { unfold room in *. lia. }
  assert (I1 : inv s1 F) by (eapply ext_inv; eauto).
  assert (N0 : ~ In 0 (print j)) by (eapply json_text_no0, print_text, J).
  destruct (parse_builds s1 F u w B d (print j) j) as (s2 & F2 & E2 & As); auto.
  - eapply handle_ext; eauto.
  - apply text_of_holds; auto. apply I1.
  - pose proof (x_used _ _ _ _ _ X B) as U. unfold at_ in U. unfold room in *. destruct (B =? A); lia.
  - now apply print_text.
  - exists (At d), d, s1, s2, F2. auto.
Qed.
(** *** C40 *)
Lemma nesting_parse s F v w A src n : inv s F -> handle s F v w A ->
  cstring s src (repeat 91 n ++ repeat 93 n) -> room s A (len_cost (2 * N.of_nat n) + print_cost (2 * N.of_nat n)) -> (0 < n)%nat ->
  exists s1 F1, zj_Parse v src s = Ok (true, s1) /\ content s1 F1 v (nest (n - 1) (JArr [])) /\
    exists k, forall fuel, (k <= fuel)%nat -> exists p s2, zj_Stringify fuel v s1 = Ok (p, s2) /\ string_at s2 p (repeat 91 n ++ repeat 93 n).
Proof.
  intros I H C R Hn. destruct n as [|n]; [lia|]. replace (S n - 1)%nat with n by lia.
  set (j := nest n (JArr [])). assert (Jo : json_ok j) by (apply nest_ok; constructor; constructor).
  assert (Ep : print j = repeat 91 (S n) ++ repeat 93 (S n)).
  { unfold j. rewrite nest_print. change (print (JArr [])) with [91; 93]. cbn [repeat]. rewrite (repeat_cons n 91), <- app_assoc. reflexivity. }
  assert (J : json_text (repeat 91 (S n) ++ repeat 93 (S n)) j) by (rewrite <- Ep; now apply print_text).
  assert (L : lenN (repeat 91 (S n) ++ repeat 93 (S n)) = 2 * N.of_nat (S n)).
  { unfold lenN. rewrite app_length, !repeat_length. lia. }
  destruct (parse_builds s F v w A src _ j I H C) as (s1 & F1 & E & As); auto.
  { rewrite L. unfold room in *. lia. }
  exists s1, F1. split; auto. split; [apply As|].
  destruct (parse_stringify s F v w A src _ I H C) as (s1' & E' & K); [exists j; auto|rewrite L; auto|].
  rewrite E in E'. injection E' as <-. rewrite (minify_print _ _ J), Ep in K. exact K.
Qed.
End WithVol.
