(** Facts about the specification alone: printing, minifying, whitespace. *)
From Verif Require Import Base Spec Lex LexProofs PureParse.

Section JsonInd.
Variable P : json -> Prop.
Hypothesis Hnull : P JNull.
Hypothesis Hbool : forall b, P (JBool b).
Hypothesis Hnum : forall t, P (JNum t).
Hypothesis Hstr : forall b, P (JStr b).
Hypothesis Harr : forall l, Forall P l -> P (JArr l).
Hypothesis Hobj : forall l, Forall (fun kv => P (snd kv)) l -> P (JObj l).
Fixpoint json_ind2 (j : json) : P j :=
  match j with
  | JNull => Hnull
  | JBool b => Hbool b
  | JNum t => Hnum t
  | JStr b => Hstr b
  | JArr l => Harr l ((fix go l := match l return Forall P l with [] => Forall_nil P | x :: r => Forall_cons x (json_ind2 x) (go r) end) l)
  | JObj l => Hobj l ((fix go l := match l return Forall (fun kv => P (snd kv)) l with
                        | [] => Forall_nil _ | (k, x) :: r => Forall_cons (k, x) (json_ind2 x) (go r) end) l)
  end.
End JsonInd.

(** ** What the grammar produces is well formed. *)
Lemma grammar_ok :
  (forall t j, jvalue t j -> json_ok j) /\
  (forall t js, jelems t js -> Forall json_ok js) /\
  (forall t ms, jmembers t ms -> Forall (fun kv => strbody (fst kv) /\ json_ok (snd kv)) ms).
Proof. apply json_mutind; intros; try constructor; simpl; auto. Qed.
Lemma json_text_ok t j : json_text t j -> json_ok j.
Proof. intros (w1 & b & w2 & _ & H & _). now apply (proj1 grammar_ok) in H. Qed.

(** ** Printed values are texts of themselves. *)
Lemma ws_nil : ws []. Proof. constructor. Qed.
Definition member_text (kv : bytes * json) : bytes := 34 :: fst kv ++ 34 :: 58 :: print (snd kv).
Lemma print_obj l : print (JObj l) = 123 :: commas (map member_text l) ++ [125].
Proof. cbn [print]. do 3 f_equal. apply map_ext. intros [k v]. reflexivity. Qed.
Lemma print_jvalue j : json_ok j -> jvalue (print j) j.
Proof.
  induction j as [| [] |t|b|l IH|l IH] using json_ind2; intro H; inversion H; subst; try (constructor; assumption).
  - destruct l as [|x l]; [apply (jv_arr0 []), ws_nil|].
    apply jv_arr. change (jelems (commas (map print (x :: l))) (x :: l)). clear H. revert x IH H1. induction l as [|y l IHl]; intros x IH H1.
    + inversion IH; inversion H1; subst. cbn [map commas]. rewrite <- (app_nil_r (print x)).
      apply (je_one [] (print x) []); auto using ws_nil.
    + inversion IH; inversion H1; subst. change (commas (map print (x :: y :: l))) with (print x ++ 44 :: commas (map print (y :: l))).
      apply (je_cons [] (print x) [] x _ (y :: l)); auto using ws_nil.
  - rewrite print_obj. destruct l as [|[k x] l]; [apply (jv_obj0 []), ws_nil|].
    apply jv_obj. change (jmembers (commas (map member_text ((k, x) :: l))) ((k, x) :: l)). clear H. revert k x IH H1. induction l as [|[k' y] l IHl]; intros k x IH H1.
    + inversion IH; inversion H1 as [|? ? [K1 K2]]; subst. cbn [map commas]. unfold member_text. cbn [fst snd] in *. rewrite <- (app_nil_r (print x)).
      apply (jm_one [] k [] [] (print x) []); auto using ws_nil.
    + inversion IH; inversion H1 as [|? ? [K1 K2]]; subst. cbn [fst snd] in *.
      change (commas (map member_text ((k, x) :: (k', y) :: l))) with (member_text (k, x) ++ 44 :: commas (map member_text ((k', y) :: l))).
      unfold member_text at 1. cbn [fst snd].
      replace ((34 :: k ++ 34 :: 58 :: print x) ++ 44 :: commas (map member_text ((k', y) :: l)))
        with ([] ++ 34 :: k ++ 34 :: [] ++ 58 :: [] ++ print x ++ [] ++ 44 :: commas (map member_text ((k', y) :: l)))
        by (cbn [app]; rewrite <- app_assoc; reflexivity).
      apply jm_cons; auto using ws_nil.
Qed.
Lemma print_text j : json_ok j -> json_text (print j) j.
Proof. intro H. exists [], (print j), []. rewrite app_nil_r. auto using ws_nil, print_jvalue. Qed.

(** ** A text denotes one value. *)
Lemma json_text_fun t j j' : json_text t j -> json_text t j' -> j = j'.
Proof. intros H H'. pose proof (ptop_complete t j [] H). pose proof (ptop_complete t j' [] H'). congruence. Qed.
Lemma print_inj j j' : json_ok j -> json_ok j' -> print j = print j' -> j = j'.
Proof. intros H H' E. apply (json_text_fun (print j)); [now apply print_text|]. rewrite E. now apply print_text. Qed.

(** ** Minification *)
Lemma minify_ws w r : ws w -> minify_from Outside (w ++ r) = minify_from Outside r.
Proof.
  induction 1 as [|c w [->|[->|[->| ->]]] Hw IH]; auto.
Qed.
Definition quiet (c : N) : Prop := (c =? 34) = false /\ (c =? 92) = false.
Lemma hex_quiet c x : hexval c = Some x -> quiet c.
Proof.
  intro H. split; apply N.eqb_neq; intros ->; discriminate H.
Qed.
Lemma hex4_quiet a b c d v : hex4 a b c d v -> quiet a /\ quiet b /\ quiet c /\ quiet d.
Proof. intros (x & y & z & t & H1 & H2 & H3 & H4 & _). eauto 10 using hex_quiet. Qed.
Lemma minify_quiet c r : quiet c -> minify_from InString (c :: r) = c :: minify_from InString r.
Proof. intros [H1 H2]. cbn [minify_from]. now rewrite H1, H2. Qed.
Lemma minify_back c r : minify_from InString (92 :: c :: r) = 92 :: c :: minify_from InString r.
Proof. reflexivity. Qed.
Lemma commas_cons {X} (f : X -> bytes) x l : l <> [] -> commas (map f (x :: l)) = f x ++ 44 :: commas (map f l).
Proof. destruct l; [congruence|reflexivity]. Qed.
Lemma minify_string b o r : decodes b o -> minify_from InString (b ++ 34 :: r) = b ++ 34 :: minify_from Outside r.
Proof.
  induction 1 as [|c b o H1 H2 H3 H IH|c x b o H1 H IH|a b c d v r0 o H1 H2 H3 H IH|a b c d a' b' c' d' v v' r0 o H1 H2 H3 H4 H IH]; auto.
  - cbn [app minify_from]. destruct (N.eqb_spec c 34); [congruence|]. destruct (N.eqb_spec c 92); [congruence|]. now rewrite IH.
  - cbn [app minify_from]. cbv match beta delta [N.eqb Pos.eqb]. now rewrite IH.
  - pose proof (hex4_quiet _ _ _ _ _ H1) as (P1 & P2 & P3 & P4).
    cbn [app]. rewrite minify_back, !minify_quiet by auto. now rewrite IH.
  - pose proof (hex4_quiet _ _ _ _ _ H1) as (P1 & P2 & P3 & P4). pose proof (hex4_quiet _ _ _ _ _ H3) as (Q1 & Q2 & Q3 & Q4).
    cbn [app]. rewrite minify_back, !minify_quiet, minify_back, !minify_quiet by auto. now rewrite IH.
Qed.
Lemma minify_str b r : strbody b -> minify_from Outside (34 :: b ++ 34 :: r) = 34 :: b ++ 34 :: minify_from Outside r.
Proof. intros [o H]. change (34 :: minify_from InString (b ++ 34 :: r) = 34 :: b ++ 34 :: minify_from Outside r). f_equal. now apply (minify_string b o). Qed.
(** Characters of numbers and literals. *)
Definition dull (c : N) : Prop := 33 <= c /\ c <> 34.
Lemma minify_dull c r : dull c -> minify_from Outside (c :: r) = c :: minify_from Outside r.
Proof.
  intros [H1 H2]. cbn [minify_from]. destruct (N.eqb_spec c 32); [lia|]. destruct (N.eqb_spec c 9); [lia|].
  destruct (N.eqb_spec c 10); [lia|]. destruct (N.eqb_spec c 13); [lia|]. destruct (N.eqb_spec c 34); [lia|]. reflexivity.
Qed.
Lemma minify_dulls t r : Forall dull t -> minify_from Outside (t ++ r) = t ++ minify_from Outside r.
Proof. induction 1 as [|c t Hc Ht IH]; auto. cbn [app]. rewrite minify_dull by auto. now rewrite IH. Qed.
Lemma digits_dull ds : Forall is_digit ds -> Forall dull ds.
Proof. apply Forall_impl. unfold is_digit, dull. intros c H. lia. Qed.
Lemma number_dull n : number n -> Forall dull n.
Proof.
  intros (sg & i & f & e & Hs & Hi & Hf & He & ->). apply Forall_app. split; [|apply Forall_app; split; [|apply Forall_app; split]].
  - destruct Hs as [->| ->]; repeat constructor; lia.
  - destruct Hi as [->|(d & ds & H1 & H2 & ->)]; [repeat constructor; lia|]. constructor; [split; lia|now apply digits_dull].
  - destruct Hf as [->|(ds & H1 & H2 & ->)]; [constructor|]. constructor; [split; lia|now apply digits_dull].
  - destruct He as [->|(e0 & sg' & ds & H0 & H1 & H2 & H3 & ->)]; [constructor|].
    constructor; [destruct H0; subst; split; lia|]. apply Forall_app. split; [|now apply digits_dull].
    destruct H1 as [->|[->| ->]]; repeat constructor; lia.
Qed.
Lemma minify_lit l r : l = txt "null" \/ l = txt "true" \/ l = txt "false" -> minify_from Outside (l ++ r) = l ++ minify_from Outside r.
Proof. intro H. apply minify_dulls.
  destruct H as [->|[->| ->]]; [change (txt "null") with [110; 117; 108; 108]|change (txt "true") with [116; 114; 117; 101]|
    change (txt "false") with [102; 97; 108; 115; 101]]; repeat (apply Forall_cons; [split; lia|]); apply Forall_nil.
Qed.

Lemma minify_grammar :
  (forall t j, jvalue t j -> forall r, minify_from Outside (t ++ r) = print j ++ minify_from Outside r) /\
  (forall t js, jelems t js -> forall r, minify_from Outside (t ++ r) = commas (map print js) ++ minify_from Outside r) /\
  (forall t ms, jmembers t ms -> forall r, minify_from Outside (t ++ r) = commas (map member_text ms) ++ minify_from Outside r).
Proof.
  apply json_mutind.
  - intro r. apply minify_lit. auto.
  - intro r. apply minify_lit. auto.
  - intro r. apply minify_lit. auto.
  - intros n H r. now apply minify_dulls, number_dull.
  - intros b H r. cbn [print app]. rewrite <- !app_assoc. cbn [app]. now apply minify_str.
  - intros w H r. cbn [print app map commas]. rewrite minify_dull by (split; lia). rewrite <- app_assoc, minify_ws by auto.
    cbn [app]. now rewrite minify_dull by (split; lia).
  - intros t js _ IH r. change (print (JArr js)) with (91 :: commas (map print js) ++ [93]). cbn [app]. rewrite minify_dull by (split; lia).
    rewrite <- !app_assoc, IH. cbn [app]. now rewrite minify_dull by (split; lia).
  - intros w H r. cbn [print app map commas]. rewrite minify_dull by (split; lia). rewrite <- app_assoc, minify_ws by auto.
    cbn [app]. now rewrite minify_dull by (split; lia).
  - intros t ms _ IH r. rewrite print_obj. cbn [app]. rewrite minify_dull by (split; lia).
    rewrite <- !app_assoc, IH. cbn [app]. now rewrite minify_dull by (split; lia).
  - intros w1 t w2 j H1 _ IH H2 r. cbn [map commas]. rewrite <- !app_assoc, minify_ws, IH, minify_ws by auto. reflexivity.
  - intros w1 t w2 j r js H1 _ IH H2 Hr IHr r'.
    rewrite commas_cons by (inversion Hr; discriminate).
    rewrite <- !app_assoc, minify_ws, IH, minify_ws by auto. cbn [app]. rewrite minify_dull by (split; lia). now rewrite IHr.
  - intros w1 k w2 w3 t w4 j H1 Hk H2 H3 _ IH H4 r. cbn [map commas]. unfold member_text. cbn [fst snd].
    repeat (rewrite <- app_assoc || rewrite <- app_comm_cons). rewrite minify_ws, minify_str, minify_ws by auto.
    rewrite minify_dull by (split; lia). rewrite minify_ws, IH, minify_ws by auto. reflexivity.
  - intros w1 k w2 w3 t w4 j r ms H1 Hk H2 H3 _ IH H4 Hr IHr r'.
    rewrite commas_cons by (inversion Hr; discriminate). unfold member_text at 1. cbn [fst snd].
    repeat (rewrite <- app_assoc || rewrite <- app_comm_cons). rewrite minify_ws, minify_str, minify_ws by auto.
    rewrite minify_dull by (split; lia). rewrite minify_ws, IH, minify_ws by auto.
    rewrite minify_dull by (split; lia). now rewrite IHr.
Qed.
Lemma minify_print t j : json_text t j -> minify t = print j.
Proof.
  intros (w1 & b & w2 & H1 & H & H2 & ->). unfold minify. rewrite minify_ws by auto.
  rewrite (proj1 minify_grammar b j H). rewrite <- (app_nil_r w2), minify_ws by auto. simpl. apply app_nil_r.
Qed.
(** Texts that minify alike denote the same value. *)
Lemma minify_same t t' j j' : json_text t j -> json_text t' j' -> minify t = minify t' -> j = j'.
Proof.
  intros H H' E. apply print_inj; [eapply json_text_ok; eauto..|]. rewrite <- (minify_print t j H), E. now apply minify_print.
Qed.

(** ** Tokens and spacing *)
Definition mtokens (kv : bytes * json) : list bytes := (34 :: fst kv ++ [34]) :: [58] :: tokens (snd kv).
Lemma tokens_obj l : tokens (JObj l) = [123] :: sep (map mtokens l) ++ [[125]].
Proof. cbn [tokens]. do 3 f_equal. apply map_ext. intros [k v]. reflexivity. Qed.
Lemma sep_cons x l : l <> [] -> sep (x :: l) = x ++ [44] :: sep l.
Proof. destruct l; [congruence|reflexivity]. Qed.
Lemma ws_app w w' : ws w -> ws w' -> ws (w ++ w'). Proof. intros. apply Forall_app. auto. Qed.
Lemma spaced_ws w ts r : ws w -> spaced ts r -> spaced ts (w ++ r).
Proof. intros H K. inversion K; subst; [constructor; now apply ws_app|]. rewrite app_assoc. constructor; auto. now apply ws_app. Qed.
Lemma spaced_one t ts r : spaced ts r -> spaced (t :: ts) (t ++ r).
Proof. intro H. apply (sp_cons [] t ts r); auto using ws_nil. Qed.

Lemma spaced_grammar :
  (forall t j, jvalue t j -> forall ts r, spaced ts r -> spaced (tokens j ++ ts) (t ++ r)) /\
  (forall t js, jelems t js -> forall ts r, spaced ts r -> spaced (sep (map tokens js) ++ ts) (t ++ r)) /\
  (forall t ms, jmembers t ms -> forall ts r, spaced ts r -> spaced (sep (map mtokens ms) ++ ts) (t ++ r)).
Proof.
  apply json_mutind; try (intros; apply spaced_one; assumption).
  - intros w H ts r K. cbn [tokens map sep app]. change (91 :: (w ++ [93]) ++ r) with ([91] ++ (w ++ [93]) ++ r).
    apply spaced_one. rewrite <- app_assoc. apply spaced_ws, spaced_one; auto.
  - intros t js _ IH ts r K. change (tokens (JArr js)) with ([91] :: sep (map tokens js) ++ [[93]]). cbn [app].
    change (91 :: (t ++ [93]) ++ r) with ([91] ++ (t ++ [93]) ++ r). apply spaced_one. rewrite <- !app_assoc. apply IH. now apply spaced_one.
  - intros w H ts r K. cbn [tokens map sep app]. change (123 :: (w ++ [125]) ++ r) with ([123] ++ (w ++ [125]) ++ r).
    apply spaced_one. rewrite <- app_assoc. apply spaced_ws, spaced_one; auto.
  - intros t ms _ IH ts r K. rewrite tokens_obj. cbn [app].
    change (123 :: (t ++ [125]) ++ r) with ([123] ++ (t ++ [125]) ++ r). apply spaced_one. rewrite <- !app_assoc. apply IH. now apply spaced_one.
  - intros w1 t w2 j H1 _ IH H2 ts r K. cbn [map sep]. rewrite <- !app_assoc. apply spaced_ws, IH, spaced_ws; auto.
  - intros w1 t w2 j r js H1 _ IH H2 Hr IHr ts r' K. cbn [map]. rewrite sep_cons by (inversion Hr; discriminate).
    rewrite <- !app_assoc. apply spaced_ws, IH, spaced_ws; auto. cbn [app]. change (44 :: r ++ r') with ([44] ++ r ++ r'). now apply spaced_one, IHr.
  - intros w1 k w2 w3 t w4 j H1 Hk H2 H3 _ IH H4 ts r K. cbn [map sep]. unfold mtokens. cbn [fst snd app].
    rewrite <- app_assoc. apply spaced_ws; auto.
    replace ((34 :: k ++ 34 :: w2 ++ 58 :: w3 ++ t ++ w4) ++ r) with ((34 :: k ++ [34]) ++ w2 ++ [58] ++ w3 ++ t ++ w4 ++ r)
      by (cbn [app]; rewrite <- !app_assoc; cbn [app]; rewrite <- !app_assoc; cbn [app]; now rewrite <- !app_assoc).
    apply spaced_one, spaced_ws; auto. apply spaced_one, spaced_ws; auto. apply IH, spaced_ws; auto.
  - intros w1 k w2 w3 t w4 j r ms H1 Hk H2 H3 _ IH H4 Hr IHr ts r' K. cbn [map].
    rewrite sep_cons by (inversion Hr; discriminate). unfold mtokens at 1. cbn [fst snd app].
    rewrite <- (app_assoc w1). apply spaced_ws; auto.
    replace ((34 :: k ++ 34 :: w2 ++ 58 :: w3 ++ t ++ w4 ++ 44 :: r) ++ r') with ((34 :: k ++ [34]) ++ w2 ++ [58] ++ w3 ++ t ++ w4 ++ [44] ++ r ++ r')
      by (cbn [app]; rewrite <- !app_assoc; cbn [app]; rewrite <- !app_assoc; cbn [app]; now rewrite <- !app_assoc).
    apply spaced_one, spaced_ws; auto. apply spaced_one, spaced_ws; auto. rewrite <- app_assoc. apply IH, spaced_ws; auto.
    cbn [app]. change (44 :: r ++ r') with ([44] ++ r ++ r'). now apply spaced_one, IHr.
Qed.
Lemma spaced_inv t ts r : spaced (t :: ts) r -> exists w r', ws w /\ spaced ts r' /\ r = w ++ t ++ r'.
Proof. intro H. inversion H; subst. eauto. Qed.

Lemma spaced_value j : json_ok j -> forall ts r, spaced (tokens j ++ ts) r ->
  exists w t r', ws w /\ jvalue t j /\ spaced ts r' /\ r = w ++ t ++ r'.
Proof.
  induction j as [| [] |t|b|l IH|l IH] using json_ind2; intro H; inversion H; subst;
    try (intros ts r K; apply spaced_inv in K as (w & r' & W & K & ->); eexists w, _, r'; split; [exact W|split; [constructor; eassumption|auto]]; fail).
  - intros ts r K. change (tokens (JArr l)) with ([91] :: sep (map tokens l) ++ [[93]]) in K. cbn [app] in K.
    apply spaced_inv in K as (w & r1 & W & K & ->). exists w. rewrite <- app_assoc in K.
    destruct l as [|x l].
    + cbn [map sep app] in K. apply spaced_inv in K as (w' & r2 & W' & K & ->). exists (91 :: w' ++ [93]), r2.
      split; auto. split; [now constructor|]. split; auto. f_equal. cbn [app]. f_equal. now rewrite <- app_assoc.
    + assert (G : exists t r', jelems t (x :: l) /\ spaced ts r' /\ r1 = t ++ [93] ++ r').
      { clear H W. revert x IH H1 r1 K. induction l as [|y l IHl]; intros x IH H1 r1 K; inversion IH as [|? ? Hx Hl]; inversion H1 as [|? ? Ox Ol]; subst.
        - cbn [map sep] in K. destruct (Hx Ox _ _ K) as (w1 & t & r2 & W1 & J & K2 & ->). cbn [app] in K2.
          apply spaced_inv in K2 as (w2 & r3 & W2 & K2 & ->). exists (w1 ++ t ++ w2), r3. split; [now constructor|]. split; auto. now rewrite <- !app_assoc.
        - change (map tokens (x :: y :: l)) with (tokens x :: map tokens (y :: l)) in K. rewrite sep_cons, <- app_assoc in K by discriminate.
          destruct (Hx Ox _ _ K) as (w1 & t & r2 & W1 & J & K2 & ->). cbn [app] in K2.
          apply spaced_inv in K2 as (w2 & r3 & W2 & K2 & ->). destruct (IHl y Hl Ol r3 K2) as (t2 & r4 & J2 & K3 & ->).
          exists (w1 ++ t ++ w2 ++ 44 :: t2), r4. split; [now constructor|]. split; auto. now rewrite <- !app_assoc. }
      destruct G as (t & r' & J & K' & ->). exists (91 :: t ++ [93]), r'. split; auto. split; [now apply jv_arr|]. split; auto.
      f_equal. cbn [app]. f_equal. now rewrite <- app_assoc.
  - intros ts r K. rewrite tokens_obj in K. cbn [app] in K.
    apply spaced_inv in K as (w & r1 & W & K & ->). exists w. rewrite <- app_assoc in K.
    destruct l as [|[k x] l].
    + cbn [map sep app] in K. apply spaced_inv in K as (w' & r2 & W' & K & ->). exists (123 :: w' ++ [125]), r2.
      split; auto. split; [now constructor|]. split; auto. f_equal. cbn [app]. f_equal. now rewrite <- app_assoc.
    + assert (G : exists t r', jmembers t ((k, x) :: l) /\ spaced ts r' /\ r1 = t ++ [125] ++ r').
      { clear H W. revert k x IH H1 r1 K. induction l as [|[k' y] l IHl]; intros k x IH H1 r1 K; inversion IH as [|? ? Hx Hl]; inversion H1 as [|? ? [Ok' Ox] Ol]; subst; cbn [fst snd] in *.
        - cbn [map sep] in K. unfold mtokens in K. cbn [fst snd app] in K.
          apply spaced_inv in K as (w1 & r2 & W1 & K & ->). apply spaced_inv in K as (w2 & r3 & W2 & K & ->).
          destruct (Hx Ox _ _ K) as (w3 & t & r4 & W3 & J & K2 & ->). cbn [app] in K2.
          apply spaced_inv in K2 as (w4 & r5 & W4 & K2 & ->). exists (w1 ++ 34 :: k ++ 34 :: w2 ++ 58 :: w3 ++ t ++ w4), r5. split; [now constructor|]. split; auto.
          cbn [app]. rewrite <- !app_assoc. cbn [app]. rewrite <- !app_assoc. cbn [app]. rewrite <- !app_assoc. cbn [app]. now rewrite <- !app_assoc.
        - change (map mtokens ((k, x) :: (k', y) :: l)) with (mtokens (k, x) :: map mtokens ((k', y) :: l)) in K. rewrite sep_cons in K by discriminate.
          unfold mtokens at 1 in K. cbn [fst snd app] in K.
          apply spaced_inv in K as (w1 & r2 & W1 & K & ->). apply spaced_inv in K as (w2 & r3 & W2 & K & ->). rewrite <- app_assoc in K.
          destruct (Hx Ox _ _ K) as (w3 & t & r4 & W3 & J & K2 & ->). cbn [app] in K2.
          apply spaced_inv in K2 as (w4 & r5 & W4 & K2 & ->). destruct (IHl k' y Hl Ol r5 K2) as (t2 & r6 & J2 & K3 & ->).
          exists (w1 ++ 34 :: k ++ 34 :: w2 ++ 58 :: w3 ++ t ++ w4 ++ 44 :: t2), r6. split; [now constructor|]. split; auto.
          cbn [app]. rewrite <- !app_assoc. cbn [app]. rewrite <- !app_assoc. cbn [app]. rewrite <- !app_assoc. cbn [app]. now rewrite <- !app_assoc. }
      destruct G as (t & r' & J & K' & ->). exists (123 :: t ++ [125]), r'. split; auto. split; [now apply jv_obj|]. split; auto.
      f_equal. cbn [app]. f_equal. now rewrite <- app_assoc.
Qed.
(** The texts of a value are exactly its tokens with whitespace anywhere between them. *)
Lemma json_text_spaced t j : json_text t j <-> json_ok j /\ spaced (tokens j) t.
Proof.
  split.
  - intro H. split; [eapply json_text_ok; eauto|]. destruct H as (w1 & b & w2 & H1 & H & H2 & ->).
    apply spaced_ws; auto. rewrite <- (app_nil_r (tokens j)). apply (proj1 spaced_grammar); auto. now constructor.
  - intros [O K]. rewrite <- (app_nil_r (tokens j)) in K. destruct (spaced_value j O _ _ K) as (w & b & r & H1 & H2 & H3 & ->).
    inversion H3; subst. exists w, b, r. auto.
Qed.
