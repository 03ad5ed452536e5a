(** The parser without its heap: a stack machine that takes the same decisions
    as zj_ParseFast (Api.v) and builds the value as a term.  This file relates
    the machine to the grammar; ParseProofs.v relates Api.v to the machine. *)
From Verif Require Import Base Spec Lex LexProofs Alloc Mem Api.

Inductive psw := PBreak (j : json) (rest : bytes) | PDown (ob : bool) (rest : bytes) | PStop.

Definition opener (ob : bool) : N := if ob then 123 else 91.
Definition closer (ob : bool) : N := if ob then 125 else 93.

Definition popen (ob : bool) (rest : bytes) : res psw :=
  cr <-? zj_peekAndConsume (closer ob) rest ;;
  let '(closed, rest') := cr in
  Ok (if closed : bool then PBreak (if ob then JObj [] else JArr []) rest' else PDown ob rest').

Definition pswitch (rest0 : bytes) : res psw :=
  pk <-? zj_peek rest0 ;;
  let '(c, rest) := pk in
  if c =? 91 then popen false rest
  else if c =? 123 then popen true rest
  else if c =? 110 then
    r <-? zj_consumeNull (c :: rest) ;;
    Ok (match r with Some rest' => PBreak JNull rest' | None => PStop end)
  else if c =? 102 then
    r <-? zj_consumeFalse rest ;;
    Ok (match r with Some rest' => PBreak (JBool false) rest' | None => PStop end)
  else if c =? 116 then
    r <-? zj_consumeTrue (c :: rest) ;;
    Ok (match r with Some rest' => PBreak (JBool true) rest' | None => PStop end)
  else if c =? 34 then
    e <-? zj_consume 34 rest ;;
    match e with
    | Some rest' => Ok (PBreak (JStr []) rest')
    | None =>
        r <-? zj_consumeStr rest ;;
        Ok (match r with
            | Some rest' => PBreak (JStr (firstn (length rest - length rest' - 1) rest)) rest'
            | None => PStop
            end)
    end
  else
    r <-? zj_consumeNum (c :: rest) ;;
    Ok (match r with
        | Some rest' => PBreak (JNum (firstn (length (c :: rest) - length rest') (c :: rest))) rest'
        | None => PStop
        end).

Definition pkey (ob : bool) (rest : bytes) : res (option (option bytes * bytes)) :=
  if ob then
    q <-? zj_peekAndConsume 34 rest ;;
    let '(ok, r1) := q in
    if negb ok then Ok None else
    e <-? zj_consume 34 r1 ;;
    k <-? match e with
          | Some r2 => Ok (Some ([], r2))
          | None =>
              k <-? zj_consumeStr r1 ;;
              Ok (match k with
                  | Some r2 => Some (firstn (length r1 - length r2 - 1) r1, r2)
                  | None => None
                  end)
          end ;;
    match k with
    | None => Ok None
    | Some (key, r2) =>
        q <-? zj_peekAndConsume 58 r2 ;;
        let '(ok, r3) := q in
        Ok (if negb ok then None else Some (Some key, r3))
    end
  else Ok (Some (None, rest)).

Record frame := mkFrame { fobj : bool; fdone : list (option bytes * json); fcur : option bytes }.

Definition okey (k : option bytes) : bytes := match k with Some k => k | None => [] end.
Definition container (ob : bool) (items : list (option bytes * json)) : json :=
  if ob then JObj (map (fun kj => (okey (fst kj), snd kj)) items) else JArr (map snd items).

Fixpoint pm (fuel : nat) (m : pmode) (j : json) (stk : list frame) (rest : bytes)
  : res (option (json * bytes)) :=
  match stk with
  | [] => Ok (Some (j, rest))
  | f :: fs =>
      match fuel with
      | O => Err EFuel
      | S fuel' =>
          match m with
          | Item =>
              k <-? pkey (fobj f) rest ;;
              match k with
              | None => Ok None
              | Some (key, r1) =>
                  sw <-? pswitch r1 ;;
                  match sw with
                  | PStop => Ok None
                  | PDown ob r2 =>
                      pm fuel' Item JNull (mkFrame ob [] None :: mkFrame (fobj f) (fdone f) key :: fs) r2
                  | PBreak j r2 => pm fuel' Close j (mkFrame (fobj f) (fdone f) key :: fs) r2
                  end
              end
          | Close =>
              q <-? zj_peekAndConsume 44 rest ;;
              let '(comma, r1) := q in
              if comma : bool then
                pm fuel' Item JNull (mkFrame (fobj f) (fdone f ++ [(fcur f, j)]) None :: fs) r1
              else
                pk <-? zj_peek r1 ;;
                let '(c, r2) := pk in
                if ((c =? 125) && fobj f) || ((c =? 93) && negb (fobj f)) then
                  pm fuel' Close (container (fobj f) (fdone f ++ [(fcur f, j)])) fs r2
                else Ok None
          end
      end
  end.

Definition ptop (text : bytes) : res (option json) :=
  let fuel := (2 * length text + 2)%nat in
  sw <-? pswitch text ;;
  r <-? match sw with
        | PStop => Ok None
        | PDown ob rest => pm fuel Item JNull [mkFrame ob [] None] rest
        | PBreak j rest => pm fuel Item j [] rest
        end ;;
  match r with
  | None => Ok None
  | Some (j, rest) =>
      q <-? zj_peekAndConsume 0 rest ;;
      Ok (if fst q : bool then Some j else None)
  end.

(** ** Inversion of the switch *)
Lemma ws_nil : ws []. Proof. constructor. Qed.
Lemma ws_app a b : ws a -> ws b -> ws (a ++ b).
Proof. intros. apply Forall_app. auto. Qed.

Lemma firstn_body (b r : bytes) :
  firstn (length (b ++ 34 :: r) - length r - 1) (b ++ 34 :: r) = b.
Proof.
  rewrite app_length. simpl.
  replace (length b + S (length r) - length r - 1)%nat with (length b + 0)%nat by lia.
  rewrite firstn_app_2. simpl. apply app_nil_r.
Qed.
Lemma firstn_num (b r : bytes) : firstn (length (b ++ r) - length r) (b ++ r) = b.
Proof.
  rewrite app_length. replace (length b + length r - length r)%nat with (length b + 0)%nat by lia.
  rewrite firstn_app_2. simpl. apply app_nil_r.
Qed.

Lemma load4_inv a b c d s : load4_eq a b c d s = Ok true -> s = a :: b :: c :: d :: skipn 4 s.
Proof.
  destruct s as [|w [|x [|y [|z s]]]]; simpl; try discriminate.
  intro H. injection H as H. bools. destruct H as [[[-> ->] ->] ->]. reflexivity.
Qed.
Lemma load4_yes a b c d r : load4_eq a b c d (a :: b :: c :: d :: r) = Ok true.
Proof. simpl. now rewrite !N.eqb_refl. Qed.

Lemma popen_inv ob r sw : popen ob r = Ok sw ->
  exists w r', ws w /\ ((sw = PBreak (container ob []) r' /\ r = w ++ closer ob :: r') \/
    (sw = PDown ob r' /\ r = w ++ r' /\ exists c q, r' = c :: q /\ c <> closer ob /\ ~ is_ws c)).
Proof.
  unfold popen. intro H. apply rbind_Ok in H as ([b r'] & H & H2).
  apply pac_inv in H as (w & Hw & H). exists w, r'. split; auto.
  destruct b; injection H2 as <-.
  - left. split; auto.
  - right. destruct H as (c & q & -> & Hc & Hws & ->). split; auto. split; auto. eauto.
Qed.

Definition scalar_text (t : bytes) (j : json) : Prop :=
  match j with
  | JArr l => l = [] /\ exists w, ws w /\ t = 91 :: w ++ [93]
  | JObj l => l = [] /\ exists w, ws w /\ t = 123 :: w ++ [125]
  | _ => True
  end.

Lemma pswitch_inv r0 sw : pswitch r0 = Ok sw ->
  match sw with
  | PBreak j r => exists w t, ws w /\ jvalue t j /\ scalar_text t j /\ r0 = w ++ t ++ r
  | PDown ob r => exists w w', ws w /\ ws w' /\ r0 = w ++ opener ob :: w' ++ r /\
      exists c q, r = c :: q /\ c <> closer ob /\ ~ is_ws c
  | PStop => True
  end.
Proof.
  unfold pswitch. intro H. apply rbind_Ok in H as ([c rest] & H & H2).
  apply peek_inv in H as (w & Hw & Hc & ->).
  assert (Kopen : forall ob, c = opener ob -> popen ob rest = Ok sw ->
    match sw with
    | PBreak j r => exists w0 t, ws w0 /\ jvalue t j /\ scalar_text t j /\ w ++ c :: rest = w0 ++ t ++ r
    | PDown ob r => exists w0 w', ws w0 /\ ws w' /\ w ++ c :: rest = w0 ++ opener ob :: w' ++ r /\
        exists c q, r = c :: q /\ c <> closer ob /\ ~ is_ws c
    | PStop => True
    end).
  { intros ob -> Ho. apply popen_inv in Ho as (w' & r' & Hw' & [(-> & ->)|(-> & -> & Hr)]).
    - exists w, (opener ob :: w' ++ [closer ob]). repeat split; auto.
      + destruct ob; simpl; [apply jv_obj0|apply jv_arr0]; auto.
      + destruct ob; simpl; eauto.
      + simpl. now rewrite <- app_assoc.
    - exists w, w'. auto. }
  destruct (c =? 91) eqn:E1; [apply N.eqb_eq in E1; eapply (Kopen false); eauto|].
  destruct (c =? 123) eqn:E2; [apply N.eqb_eq in E2; eapply (Kopen true); eauto|].
  clear Kopen.
  destruct (c =? 110) eqn:E3.
  { apply N.eqb_eq in E3. subst c. apply rbind_Ok in H2 as (o & H & H2). injection H2 as <-.
    unfold zj_consumeNull in H. apply rbind_Ok in H as (b & H & H2). injection H2 as <-.
    destruct b; [|exact I]. apply load4_inv in H. exists w, (txt "null").
    repeat split; auto. constructor. rewrite H at 1. reflexivity. }
  destruct (c =? 102) eqn:E4.
  { apply N.eqb_eq in E4. subst c. apply rbind_Ok in H2 as (o & H & H2). injection H2 as <-.
    unfold zj_consumeFalse in H. apply rbind_Ok in H as (b & H & H2). injection H2 as <-.
    destruct b; [|exact I]. apply load4_inv in H. exists w, (txt "false").
    repeat split; auto. constructor. rewrite H at 1. reflexivity. }
  destruct (c =? 116) eqn:E5.
  { apply N.eqb_eq in E5. subst c. apply rbind_Ok in H2 as (o & H & H2). injection H2 as <-.
    unfold zj_consumeTrue in H. apply rbind_Ok in H as (b & H & H2). injection H2 as <-.
    destruct b; [|exact I]. apply load4_inv in H. exists w, (txt "true").
    repeat split; auto. constructor. rewrite H at 1. reflexivity. }
  destruct (c =? 34) eqn:E6.
  { apply N.eqb_eq in E6. subst c. apply rbind_Ok in H2 as (o & H & H2). destruct o as [r'|].
    - apply consume_inv in H. subst rest. injection H2 as <-. exists w, (34 :: [] ++ [34]).
      repeat split; auto. constructor. apply strbody_nil.
    - apply rbind_Ok in H2 as (o & H3 & H2). destruct o as [r'|]; injection H2 as <-; [|exact I].
      apply consumeStr_inv in H3 as (b & Hb & ->). rewrite firstn_body.
      exists w, (34 :: b ++ [34]). repeat split; auto. constructor; auto.
      simpl. now rewrite <- app_assoc. }
  apply rbind_Ok in H2 as (o & H & H2). destruct o as [r'|]; [|injection H2 as <-; exact I].
  apply consumeNum_inv in H as (n & Hn & E). rewrite E, firstn_num in H2. injection H2 as <-.
  exists w, n. rewrite E. repeat split; auto. constructor; auto.
Qed.

Lemma pkey_inv ob r o : pkey ob r = Ok (Some o) ->
  if ob then exists w k w2 r3, ws w /\ strbody k /\ ws w2 /\ o = (Some k, r3) /\
    r = w ++ 34 :: k ++ 34 :: w2 ++ 58 :: r3
  else o = (None, r).
Proof.
  unfold pkey. destruct ob; [|congruence].
  intro H. apply rbind_Ok in H as ([b r1] & H1 & H). destruct b; [|discriminate]. cbn [negb] in H.
  apply pac_inv in H1 as (w & Hw & ->).
  apply rbind_Ok in H as (e & He & H). apply rbind_Ok in H as (k & Hk & H).
  destruct k as [[key r2]|]; [|discriminate].
  assert (Hs : strbody key /\ r1 = key ++ 34 :: r2).
  { destruct e as [r2'|].
    - apply consume_inv in He. injection Hk as <- <-. subst. split; auto using strbody_nil.
    - apply rbind_Ok in Hk as (x & Hx & Hk). destruct x as [r2'|]; [|discriminate].
      apply consumeStr_inv in Hx as (b & Hb & ->). rewrite firstn_body in Hk.
      injection Hk as <- <-. auto. }
  destruct Hs as [Hs ->]. apply rbind_Ok in H as ([b r3] & H2 & H).
  destruct b; [|discriminate]. injection H as <-.
  apply pac_inv in H2 as (w2 & Hw2 & ->).
  exists w, key, w2, r3. auto.
Qed.

(** ** Soundness *)
Definition jitems (ob : bool) (t : bytes) (items : list (option bytes * json)) : Prop :=
  if ob then exists ms, jmembers t ms /\ items = map (fun kj => (Some (fst kj), snd kj)) ms
  else exists js, jelems t js /\ items = map (fun j => (None, j)) js.

Definition keytext (ob : bool) (kt : bytes) (key : option bytes) : Prop :=
  if ob then exists w k w2, ws w /\ strbody k /\ ws w2 /\ key = Some k /\
    kt = w ++ 34 :: k ++ 34 :: w2 ++ [58]
  else kt = [] /\ key = None.

Lemma pkey_inv2 ob r key r3 : pkey ob r = Ok (Some (key, r3)) ->
  exists kt, keytext ob kt key /\ r = kt ++ r3.
Proof.
  intro H. apply pkey_inv in H. destruct ob.
  - destruct H as (w & k & w2 & r3' & Hw & Hk & Hw2 & E & ->). injection E as -> ->.
    exists (w ++ 34 :: k ++ 34 :: w2 ++ [58]). split.
    + exists w, k, w2. auto.
    + rewrite <- !app_assoc. simpl. rewrite <- !app_assoc. simpl. now rewrite <- !app_assoc.
  - injection H as -> ->. exists []. split; auto. split; auto.
Qed.

Lemma jitems_one ob kt key w t j w' : keytext ob kt key -> ws w -> jvalue t j -> ws w' ->
  jitems ob (kt ++ w ++ t ++ w') [(key, j)].
Proof.
  destruct ob; simpl.
  - intros (w1 & k & w2 & Hw1 & Hk & Hw2 & -> & ->) Hw Ht Hw'. exists [(k, j)]. split; auto.
    replace ((w1 ++ 34 :: k ++ 34 :: w2 ++ [58]) ++ w ++ t ++ w')
      with (w1 ++ 34 :: k ++ 34 :: w2 ++ 58 :: w ++ t ++ w').
    + constructor; auto.
    + rewrite <- !app_assoc. simpl. rewrite <- !app_assoc. simpl. now rewrite <- !app_assoc.
  - intros [-> ->] Hw Ht Hw'. exists [j]. split; auto. apply (je_one w t w' j); auto.
Qed.
Lemma jitems_cons ob kt key w t j w' r items : keytext ob kt key -> ws w -> jvalue t j -> ws w' ->
  jitems ob r items -> jitems ob (kt ++ w ++ t ++ w' ++ 44 :: r) ((key, j) :: items).
Proof.
  destruct ob; simpl.
  - intros (w1 & k & w2 & Hw1 & Hk & Hw2 & -> & ->) Hw Ht Hw' (ms & Hms & ->).
    exists ((k, j) :: ms). split; auto.
    replace ((w1 ++ 34 :: k ++ 34 :: w2 ++ [58]) ++ w ++ t ++ w' ++ 44 :: r)
      with (w1 ++ 34 :: k ++ 34 :: w2 ++ 58 :: w ++ t ++ w' ++ 44 :: r).
    + constructor; auto.
    + rewrite <- !app_assoc. simpl. rewrite <- !app_assoc. simpl. now rewrite <- !app_assoc.
  - intros [-> ->] Hw Ht Hw' (js & Hjs & ->). exists (j :: js). split; auto. apply (je_cons w t w' j r js); auto.
Qed.
Lemma jitems_ws ob w t items : ws w -> jitems ob t items -> jitems ob (w ++ t) items.
Proof.
  intros Hw. destruct ob; simpl.
  - intros (ms & H & ->). exists ms. split; auto.
    inversion H; subst; rewrite app_assoc; constructor; auto using ws_app.
  - intros (js & H & ->). exists js. split; auto.
    inversion H; subst; rewrite app_assoc; constructor; auto using ws_app.
Qed.
Lemma jitems_value ob t items : jitems ob t items ->
  jvalue (opener ob :: t ++ [closer ob]) (container ob items).
Proof.
  destruct ob; simpl.
  - intros (ms & H & ->). unfold container. rewrite map_map. simpl.
    replace (map (fun x : bytes * json => (fst x, snd x)) ms) with ms.
    + now constructor.
    + clear H. induction ms as [|[k v] ms IH]; simpl; congruence.
  - intros (js & H & ->). unfold container. rewrite map_map. simpl. rewrite map_id. now constructor.
Qed.

Lemma close_sound fuel j f fs r res : pm fuel Close j (f :: fs) r = Ok (Some res) ->
  exists fuel' w, (fuel = S fuel')%nat /\ ws w /\
  ((exists r1, r = w ++ 44 :: r1 /\
      pm fuel' Item JNull (mkFrame (fobj f) (fdone f ++ [(fcur f, j)]) None :: fs) r1 = Ok (Some res))
   \/ (exists r2, r = w ++ closer (fobj f) :: r2 /\
      pm fuel' Close (container (fobj f) (fdone f ++ [(fcur f, j)])) fs r2 = Ok (Some res))).
Proof.
  destruct fuel as [|fuel]; [discriminate|]. cbn [pm]. intro H. exists fuel.
  apply rbind_Ok in H as ([b r1] & H1 & H). apply pac_inv in H1 as (w & Hw & H1).
  exists w. split; auto. split; auto.
  destruct b.
  - left. eauto.
  - right. destruct H1 as (c & q & -> & Hc & Hcw & ->).
    apply rbind_Ok in H as ([c' r2] & H2 & H).
    change (c :: q) with ([] ++ c :: q) in H2. rewrite peek_app in H2 by (auto using ws_nil).
    injection H2 as <- <-.
    destruct (((c =? 125) && fobj f) || ((c =? 93) && negb (fobj f))) eqn:E; [|discriminate].
    exists q. split; auto. f_equal. f_equal.
    destruct (fobj f); simpl in E; rewrite ?andb_false_r, ?andb_true_r, ?orb_false_r in E;
      apply N.eqb_eq in E; exact E.
Qed.

Lemma item_sound fuel : forall f fs r res, pm fuel Item JNull (f :: fs) r = Ok (Some res) ->
  exists fuel' t items r', (fuel' < fuel)%nat /\ r = t ++ closer (fobj f) :: r' /\
    jitems (fobj f) t items /\
    pm fuel' Close (container (fobj f) (fdone f ++ items)) fs r' = Ok (Some res).
Proof.
  induction fuel as [fuel IH] using lt_wf_ind. intros f fs r res H.
  destruct fuel as [|fuel]; [discriminate|]. cbn [pm] in H.
  apply rbind_Ok in H as (o & Hk & H). destruct o as [[key r1]|]; [|discriminate].
  apply pkey_inv2 in Hk as (kt & Hkt & ->).
  apply rbind_Ok in H as (sw & Hsw & H). apply pswitch_inv in Hsw.
  (* the value, then what follows it *)
  assert (V : exists fuel' w t j r2, (fuel' <= fuel)%nat /\ ws w /\ jvalue t j /\ r1 = w ++ t ++ r2 /\
    pm fuel' Close j (mkFrame (fobj f) (fdone f) key :: fs) r2 = Ok (Some res)).
  { destruct sw as [j r2|ob r2|]; [| |discriminate].
    - destruct Hsw as (w & t & Hw & Ht & _ & ->). exists fuel, w, t, j, r2. auto.
    - destruct Hsw as (w & w' & Hw & Hw' & -> & _).
      apply IH in H as (fuel' & t & items & r' & Hf & -> & Hi & H); [|lia]. simpl in *.
      exists fuel', w, (opener ob :: (w' ++ t) ++ [closer ob]), (container ob items), r'.
      repeat split; auto; [lia| |].
      + apply jitems_value. now apply jitems_ws.
      + simpl. rewrite <- !app_assoc. reflexivity. }
  destruct V as (fuel' & w & t & j & r2 & Hf & Hw & Ht & -> & H2). clear H Hsw.
  apply close_sound in H2 as (fuel2 & w' & -> & Hw' & [(r3 & -> & H2)|(r3 & -> & H2)]); simpl in *.
  - apply IH in H2 as (fuel3 & t3 & items & r' & Hf3 & -> & Hi & H3); [|lia]. simpl in *.
    exists fuel3, (kt ++ w ++ t ++ w' ++ 44 :: t3), ((key, j) :: items), r'.
    repeat split; auto; [lia| | |].
    + rewrite <- !app_assoc. reflexivity.
    + now apply jitems_cons.
    + now rewrite <- app_assoc in H3.
  - exists fuel2, (kt ++ w ++ t ++ w'), [(key, j)], r3.
    repeat split; auto.
    + rewrite <- !app_assoc. reflexivity.
    + now apply jitems_one.
Qed.

Lemma ptop_sound text j : ptop text = Ok (Some j) ->
  exists t slack, text = t ++ 0 :: slack /\ json_text t j.
Proof.
  unfold ptop. intro H. apply rbind_Ok in H as (sw & Hsw & H). apply pswitch_inv in Hsw.
  apply rbind_Ok in H as (r & Hr & H). destruct r as [[j' rest]|]; [|discriminate].
  apply rbind_Ok in H as ([b r2] & Hq & H). apply pac_inv in Hq as (w2 & Hw2 & Hq).
  destruct b; [|discriminate]. injection H as ->. subst rest.
  destruct sw as [j1 r1|ob r1|]; [| |discriminate].
  - destruct Hsw as (w & t & Hw & Ht & _ & ->). simpl in Hr. destruct (_ + 2)%nat in Hr; injection Hr as -> ->;
    exists (w ++ t ++ w2), r2; (split; [now rewrite <- !app_assoc | exists w, t, w2; auto]).
  - destruct Hsw as (w & w' & Hw & Hw' & -> & _).
    apply item_sound in Hr as (fuel' & t & items & r' & _ & -> & Hi & Hr). simpl in Hr, Hi.
    assert (E : Some (container ob items, r') = Some (j, w2 ++ 0 :: r2)).
    { destruct fuel'; simpl in Hr; congruence. }
    injection E as <- ->.
    exists (w ++ (opener ob :: (w' ++ t) ++ [closer ob]) ++ w2), r2. split.
    + simpl. rewrite <- !app_assoc. simpl. now rewrite <- !app_assoc.
    + exists w, (opener ob :: (w' ++ t) ++ [closer ob]), w2. repeat split; auto.
      apply jitems_value. now apply jitems_ws.
Qed.

(** ** Completeness *)
Scheme jvalue_ind' := Minimality for jvalue Sort Prop
  with jelems_ind' := Minimality for jelems Sort Prop
  with jmembers_ind' := Minimality for jmembers Sort Prop.
Combined Scheme json_mutind from jvalue_ind', jelems_ind', jmembers_ind'.

Lemma skip_ws_pre w r : ws w -> skip_ws (w ++ r) = skip_ws r.
Proof.
  induction 1 as [|x w Hx Hw IH]; simpl; auto. apply skin_ws in Hx. now rewrite Hx.
Qed.
Lemma peek_pre w r : ws w -> zj_peek (w ++ r) = zj_peek r.
Proof. intro. unfold zj_peek. now rewrite skip_ws_pre. Qed.
Lemma pac_pre c w r : ws w -> zj_peekAndConsume c (w ++ r) = zj_peekAndConsume c r.
Proof. intro. unfold zj_peekAndConsume. now rewrite skip_ws_pre. Qed.
Lemma pswitch_pre w r : ws w -> pswitch (w ++ r) = pswitch r.
Proof. intro. unfold pswitch. now rewrite peek_pre. Qed.
Lemma pkey_pre w r : ws w -> pkey true (w ++ r) = pkey true r.
Proof. intro. unfold pkey. now rewrite pac_pre. Qed.
Lemma pm_item_pre fuel j f fs w r : ws w ->
  pm fuel Item j (f :: fs) (w ++ r) = pm fuel Item j (f :: fs) r.
Proof.
  intro Hw. destruct fuel as [|fuel]; auto. cbn [pm]. destruct (fobj f) eqn:E.
  - now rewrite pkey_pre.
  - unfold pkey. cbn [rbind]. now rewrite pswitch_pre.
Qed.

Lemma jvalue_head t j : jvalue t j -> exists c r, t = c :: r /\ ~ is_ws c /\
  c <> 93 /\ c <> 125 /\ c <> 44 /\ c <> 58 /\ c <> 0.
Proof.
  intro H. unfold is_ws.
  destruct H; [exists 110, (txt "ull")|exists 116, (txt "rue")|exists 102, (txt "alse")|..];
    try (split; [reflexivity|]; repeat split; lia); try (do 2 eexists; split; [reflexivity|]; repeat split; lia).
  apply number_head in H as (c & r & -> & Hc). exists c, r. split; auto.
  unfold is_digit in Hc. repeat split; lia.
Qed.

Lemma num_stop_ws w c r : ws w -> ~ is_digit c -> c <> 46 -> c <> 101 -> c <> 69 ->
  num_stop (w ++ c :: r).
Proof.
  intros Hw H1 H2 H3 H4. destruct Hw as [|x w Hx Hw].
  - exists c, r. auto.
  - exists x, (w ++ c :: r). split; auto. unfold is_ws in Hx. unfold is_digit. lia.
Qed.

Definition after (fuel : nat) (sw : psw) (f : frame) (fs : list frame) : res (option (json * bytes)) :=
  match sw with
  | PStop => Ok None
  | PDown ob r2 => pm fuel Item JNull (mkFrame ob [] None :: f :: fs) r2
  | PBreak j r2 => pm fuel Close j (f :: fs) r2
  end.

(** The switch on a value followed by [r]: decided at once, or a descent. *)
Lemma pswitch_scalar t j r : jvalue t j -> scalar_text t j -> num_stop r ->
  pswitch (t ++ r) = Ok (PBreak j r).
Proof.
  intros H Hs Hr. destruct H.
  - reflexivity.
  - reflexivity.
  - reflexivity.
  - destruct (number_head _ H) as (c & q & -> & Hc). unfold pswitch.
    change ((c :: q) ++ r) with ([] ++ c :: q ++ r).
    rewrite peek_app by (auto using ws_nil; unfold is_ws, is_digit in *; lia).
    cbn [rbind].
    replace (c =? 91) with false by (symmetry; unfold is_digit in Hc; bools; lia).
    replace (c =? 123) with false by (symmetry; unfold is_digit in Hc; bools; lia).
    replace (c =? 110) with false by (symmetry; unfold is_digit in Hc; bools; lia).
    replace (c =? 102) with false by (symmetry; unfold is_digit in Hc; bools; lia).
    replace (c =? 116) with false by (symmetry; unfold is_digit in Hc; bools; lia).
    replace (c =? 34) with false by (symmetry; unfold is_digit in Hc; bools; lia).
    change (c :: q ++ r) with ((c :: q) ++ r). rewrite consumeNum_yes by auto. cbn [rbind].
    now rewrite firstn_num.
  - unfold pswitch. simpl app. change (34 :: (b ++ [34]) ++ r) with ([] ++ 34 :: (b ++ [34]) ++ r).
    rewrite peek_app by (auto using ws_nil; unfold is_ws; lia). cbn [rbind].
    change (34 =? 91) with false. change (34 =? 123) with false. change (34 =? 110) with false.
    change (34 =? 102) with false. change (34 =? 116) with false. change (34 =? 34) with true.
    cbv iota. rewrite <- app_assoc. simpl app.
    destruct b as [|x b].
    + simpl app. rewrite consume_yes. reflexivity.
    + assert (Hx : x <> 34).
      { destruct H as [o H]. inversion H; subst; auto; lia. }
      change ((x :: b) ++ 34 :: r) with (x :: (b ++ 34 :: r)). rewrite consume_no by auto. cbn [rbind].
      change (x :: (b ++ 34 :: r)) with ((x :: b) ++ 34 :: r).
      rewrite consumeStr_yes by auto. cbn [rbind]. now rewrite firstn_body.
  - unfold pswitch. simpl app. change (91 :: (w ++ [93]) ++ r) with ([] ++ 91 :: (w ++ [93]) ++ r).
    rewrite peek_app by (auto using ws_nil; unfold is_ws; lia). cbn [rbind].
    change (91 =? 91) with true. cbv iota. unfold popen. rewrite <- app_assoc. simpl app.
    change (closer false) with 93. rewrite pac_yes by (auto; unfold is_ws; lia). reflexivity.
  - exfalso. destruct Hs as (-> & w & Hw & E). inversion H.
  - unfold pswitch. simpl app. change (123 :: (w ++ [125]) ++ r) with ([] ++ 123 :: (w ++ [125]) ++ r).
    rewrite peek_app by (auto using ws_nil; unfold is_ws; lia). cbn [rbind].
    change (123 =? 91) with false. change (123 =? 123) with true. cbv iota.
    unfold popen. rewrite <- app_assoc. simpl app.
    change (closer true) with 125. rewrite pac_yes by (auto; unfold is_ws; lia). reflexivity.
  - exfalso. destruct Hs as (-> & w & Hw & E). inversion H.
Qed.

(** Items start, after blanks, with a character that does not close. *)
Lemma jitems_head ob t items : jitems ob t items -> exists w c q, ws w /\ t = w ++ c :: q /\
  ~ is_ws c /\ c <> closer ob.
Proof.
  destruct ob; simpl.
  - intros (ms & H & _). destruct H; exists w1; do 2 eexists; (split; [auto|]); (split; [reflexivity|]);
      unfold is_ws; lia.
  - intros (js & H & _). destruct H as [w1 t w2 j Hw1 Ht Hw2|w1 t w2 j r js Hw1 Ht Hw2 Hr];
      destruct (jvalue_head _ _ Ht) as (c & q & -> & Hc & H93 & _); exists w1; simpl; eauto 8.
Qed.

Lemma pswitch_open ob t items r : jitems ob t items -> exists w q,
  ws w /\ t ++ closer ob :: r = w ++ q /\
  pswitch (opener ob :: (t ++ [closer ob]) ++ r) = Ok (PDown ob q).
Proof.
  intro H. destruct (jitems_head _ _ _ H) as (w & c & q & Hw & -> & Hc & Hcl).
  exists w, (c :: q ++ closer ob :: r). rewrite <- !app_assoc. simpl app. repeat split; auto.
  unfold pswitch.
  change (opener ob :: w ++ c :: q ++ closer ob :: r) with ([] ++ opener ob :: w ++ c :: q ++ closer ob :: r).
  rewrite peek_app by (auto using ws_nil; destruct ob; unfold is_ws, opener; lia).
  cbn [rbind]. destruct ob; cbn [opener].
  - change (123 =? 91) with false. change (123 =? 123) with true. cbv iota.
    unfold popen. rewrite pac_no by auto. reflexivity.
  - change (91 =? 91) with true. cbv iota.
    unfold popen. rewrite pac_no by auto. reflexivity.
Qed.

Lemma pkey_text kt k r : keytext true kt k -> pkey true (kt ++ r) = Ok (Some (k, r)).
Proof.
  intros (w & b & w2 & Hw & Hb & Hw2 & -> & ->). unfold pkey.
  rewrite <- !app_assoc. simpl app. rewrite pac_yes by (auto; unfold is_ws; lia).
  cbn [rbind negb]. rewrite <- !app_assoc. simpl app. rewrite <- !app_assoc. simpl app.
  assert (E2 : zj_peekAndConsume 58 (w2 ++ 58 :: r) = Ok (true, r))
    by (apply pac_yes; auto; unfold is_ws; lia).
  destruct b as [|x b].
  - simpl app. rewrite consume_yes. cbn [rbind]. rewrite E2. reflexivity.
  - assert (Hx : x <> 34).
    { destruct Hb as [o Hb]. inversion Hb; subst; auto; lia. }
    change ((x :: b) ++ 34 :: w2 ++ 58 :: r) with (x :: (b ++ 34 :: w2 ++ 58 :: r)).
    rewrite consume_no by auto. cbn [rbind].
    change (x :: (b ++ 34 :: w2 ++ 58 :: r)) with ((x :: b) ++ 34 :: w2 ++ 58 :: r).
    rewrite consumeStr_yes by auto. cbn [rbind]. rewrite firstn_body. rewrite E2. reflexivity.
Qed.
Lemma pkey_any ob kt k r : keytext ob kt k -> pkey ob (kt ++ r) = Ok (Some (k, r)).
Proof.
  destruct ob; [apply pkey_text|]. intros [-> ->]. reflexivity.
Qed.

Lemma pm_close_comma fuel j f fs w r : ws w ->
  pm (S fuel) Close j (f :: fs) (w ++ 44 :: r) =
  pm fuel Item JNull (mkFrame (fobj f) (fdone f ++ [(fcur f, j)]) None :: fs) r.
Proof. intro Hw. cbn [pm]. rewrite pac_yes by (auto; unfold is_ws; lia). reflexivity. Qed.
Lemma pm_close_end fuel j f fs w r : ws w ->
  pm (S fuel) Close j (f :: fs) (w ++ closer (fobj f) :: r) =
  pm fuel Close (container (fobj f) (fdone f ++ [(fcur f, j)])) fs r.
Proof.
  intro Hw. cbn [pm].
  rewrite pac_no by (auto; destruct (fobj f); unfold is_ws, closer; lia).
  cbn [rbind]. change (closer (fobj f) :: r) with ([] ++ closer (fobj f) :: r).
  rewrite peek_app by (auto using ws_nil; destruct (fobj f); unfold is_ws, closer; lia).
  cbn [rbind]. destruct (fobj f); reflexivity.
Qed.

Definition Pvalue (t : bytes) (j : json) : Prop :=
  forall r, num_stop r -> exists n, forall f fs, exists sw, pswitch (t ++ r) = Ok sw /\
    forall fuel, after (n + fuel) sw f fs = pm fuel Close j (f :: fs) r.
Definition Pitems (ob : bool) (t : bytes) (items : list (option bytes * json)) : Prop :=
  forall r, exists n, forall f fs, fobj f = ob -> forall fuel,
    pm (n + fuel) Item JNull (f :: fs) (t ++ closer ob :: r) =
    pm fuel Close (container ob (fdone f ++ items)) fs r.

Lemma Pvalue_scalar t j : jvalue t j -> scalar_text t j -> Pvalue t j.
Proof.
  intros H Hs r Hr. exists O. intros f fs. exists (PBreak j r). split.
  - now apply pswitch_scalar.
  - reflexivity.
Qed.
Lemma Pvalue_container ob t items : jitems ob t items -> Pitems ob t items ->
  Pvalue (opener ob :: t ++ [closer ob]) (container ob items).
Proof.
  intros H IH r Hr. destruct (IH r) as [n Hn]. exists n. intros f fs.
  destruct (pswitch_open ob t items r H) as (w & q & Hw & E & Hsw).
  exists (PDown ob q). split; [exact Hsw|].
  intro fuel. simpl after. rewrite <- (pm_item_pre _ _ _ _ w q Hw). rewrite <- E.
  rewrite Hn by auto. reflexivity.
Qed.

Lemma num_stop_44 w r : ws w -> num_stop (w ++ 44 :: r).
Proof. intro. apply num_stop_ws; auto; unfold is_digit; lia. Qed.
Lemma num_stop_closer ob w r : ws w -> num_stop (w ++ closer ob :: r).
Proof. intro. apply num_stop_ws; auto; destruct ob; unfold is_digit, closer; lia. Qed.

Lemma Pitems_one ob kt key w t j w' : keytext ob kt key -> ws w -> Pvalue t j -> ws w' ->
  Pitems ob (kt ++ w ++ t ++ w') [(key, j)].
Proof.
  intros Hk Hw Hv Hw' r. destruct (Hv (w' ++ closer ob :: r)) as [n Hn]; [now apply num_stop_closer|].
  exists (S (n + 1)). intros f fs Hf fuel.
  rewrite <- !app_assoc. cbn [pm Nat.add]. rewrite Hf, (pkey_any _ _ _ _ Hk). cbn [rbind].
  rewrite pswitch_pre by auto.
  destruct (Hn (mkFrame ob (fdone f) key) fs) as (sw & -> & Hsw). cbn [rbind].
  fold (after (n + 1 + fuel) sw (mkFrame ob (fdone f) key) fs).
  rewrite <- Nat.add_assoc, Hsw. simpl Nat.add.
  exact (pm_close_end fuel j (mkFrame ob (fdone f) key) fs w' r Hw').
Qed.
Lemma Pitems_cons ob kt key w t j w' tr items : keytext ob kt key -> ws w -> Pvalue t j -> ws w' ->
  Pitems ob tr items -> Pitems ob (kt ++ w ++ t ++ w' ++ 44 :: tr) ((key, j) :: items).
Proof.
  intros Hk Hw Hv Hw' Hi r. destruct (Hi r) as [n2 Hn2].
  destruct (Hv (w' ++ 44 :: tr ++ closer ob :: r)) as [n Hn]; [now apply num_stop_44|].
  exists (S (n + S n2)). intros f fs Hf fuel.
  rewrite <- !app_assoc. cbn [pm Nat.add]. rewrite Hf, (pkey_any _ _ _ _ Hk). cbn [rbind].
  rewrite pswitch_pre by auto. simpl app.
  destruct (Hn (mkFrame ob (fdone f) key) fs) as (sw & -> & Hsw). cbn [rbind].
  fold (after (n + S n2 + fuel) sw (mkFrame ob (fdone f) key) fs).
  rewrite <- Nat.add_assoc, Hsw. cbn [Nat.add].
  rewrite pm_close_comma by auto. cbn [fobj fdone fcur].
  rewrite Hn2 by auto. cbn [fdone]. now rewrite <- app_assoc.
Qed.

Lemma container_members ms :
  container true (map (fun kj : bytes * json => (Some (fst kj), snd kj)) ms) = JObj ms.
Proof.
  unfold container. rewrite map_map. simpl. f_equal.
  induction ms as [|[k v] ms IH]; simpl; congruence.
Qed.
Lemma container_elems js : container false (map (fun j : json => (None, j)) js) = JArr js.
Proof. unfold container. rewrite map_map. simpl. now rewrite map_id. Qed.

Lemma grammar_machine :
  (forall t j, jvalue t j -> Pvalue t j) /\
  (forall t js, jelems t js -> Pitems false t (map (fun j => (None, j)) js)) /\
  (forall t ms, jmembers t ms -> Pitems true t (map (fun kj => (Some (fst kj), snd kj)) ms)).
Proof.
  apply json_mutind.
  - apply Pvalue_scalar; constructor.
  - apply Pvalue_scalar; constructor.
  - apply Pvalue_scalar; constructor.
  - intros. apply Pvalue_scalar; [now constructor|exact I].
  - intros. apply Pvalue_scalar; [now constructor|exact I].
  - intros. apply Pvalue_scalar; [now constructor|]. simpl. eauto.
  - intros t js H IH. rewrite <- container_elems. apply (Pvalue_container false); auto.
    exists js. auto.
  - intros. apply Pvalue_scalar; [now constructor|]. simpl. eauto.
  - intros t ms H IH. rewrite <- container_members. apply (Pvalue_container true); auto.
    exists ms. auto.
  - intros w1 t w2 j Hw1 _ IH Hw2. apply (Pitems_one false [] None w1 t j w2); auto. split; auto.
  - intros w1 t w2 j r js Hw1 _ IH Hw2 _ IH2.
    apply (Pitems_cons false [] None w1 t j w2 r); auto. split; auto.
  - intros w1 k w2 w3 t w4 j Hw1 Hk Hw2 Hw3 _ IH Hw4.
    replace (w1 ++ 34 :: k ++ 34 :: w2 ++ 58 :: w3 ++ t ++ w4)
      with ((w1 ++ 34 :: k ++ 34 :: w2 ++ [58]) ++ w3 ++ t ++ w4).
    + apply (Pitems_one true _ (Some k) w3 t j w4); auto. exists w1, k, w2. auto.
    + rewrite <- !app_assoc. simpl. rewrite <- !app_assoc. simpl. now rewrite <- !app_assoc.
  - intros w1 k w2 w3 t w4 j r ms Hw1 Hk Hw2 Hw3 _ IH Hw4 _ IH2.
    replace (w1 ++ 34 :: k ++ 34 :: w2 ++ 58 :: w3 ++ t ++ w4 ++ 44 :: r)
      with ((w1 ++ 34 :: k ++ 34 :: w2 ++ [58]) ++ w3 ++ t ++ w4 ++ 44 :: r).
    + apply (Pitems_cons true _ (Some k) w3 t j w4 r); auto. exists w1, k, w2. auto.
    + rewrite <- !app_assoc. simpl. rewrite <- !app_assoc. simpl. now rewrite <- !app_assoc.
Qed.

(** ** Termination: every step consumes a byte. *)
Lemma jvalue_nonempty t j : jvalue t j -> (0 < length t)%nat.
Proof. intro H. destruct (jvalue_head _ _ H) as (c & r & -> & _). simpl. lia. Qed.

Lemma pswitch_len r0 sw : pswitch r0 = Ok sw ->
  match sw with PBreak _ r | PDown _ r => (length r < length r0)%nat | PStop => True end.
Proof.
  intro H. apply pswitch_inv in H. destruct sw as [j r|ob r|]; auto.
  - destruct H as (w & t & _ & Ht & _ & ->). apply jvalue_nonempty in Ht. rewrite !app_length. lia.
  - destruct H as (w & w' & _ & _ & -> & _). rewrite app_length. simpl. rewrite app_length. lia.
Qed.
Lemma pkey_len ob r k r1 : pkey ob r = Ok (Some (k, r1)) -> (length r1 <= length r)%nat.
Proof.
  intro H. apply pkey_inv2 in H as (kt & _ & ->). rewrite app_length. lia.
Qed.
Lemma pac_len c s b r : zj_peekAndConsume c s = Ok (b, r) ->
  (if b then (length r < length s)%nat else (length r <= length s)%nat).
Proof.
  intro H. apply pac_inv in H as (w & _ & H). destruct b.
  - subst. rewrite app_length. simpl. lia.
  - destruct H as (c' & q & -> & _ & _ & ->). rewrite app_length. lia.
Qed.
Lemma peek_len s c r : zj_peek s = Ok (c, r) -> (length r < length s)%nat.
Proof. intro H. apply peek_inv in H as (w & _ & _ & ->). rewrite app_length. simpl. lia. Qed.

Ltac ne_err := first [discriminate | congruence | let X := fresh in intro X; injection X; congruence].
(** The only error is a read past the end. *)
Lemma lex_only_oob er (NE : er <> EOob) :
  (forall c s, zj_peekAndConsume c s <> Err er) /\ (forall s, zj_peek s <> Err er) /\
  (forall s, pswitch s <> Err er) /\ (forall ob s, pkey ob s <> Err er).
Proof.
  assert (K0 : forall s, skip_ws s <> Err er).
  { induction s as [|c s IH]; simpl; [ne_err|]. destruct (zj_skin c); [auto|ne_err]. }
  assert (K1 : forall c s, zj_peekAndConsume c s <> Err er).
  { intros c s. unfold zj_peekAndConsume. specialize (K0 s).
    destruct (skip_ws s) as [[|x r]|e]; simpl; try ne_err. }
  assert (K2 : forall s, zj_peek s <> Err er).
  { intros s. unfold zj_peek. specialize (K0 s).
    destruct (skip_ws s) as [[|x r]|e]; simpl; try ne_err. }
  assert (Kc : forall c s, zj_consume c s <> Err er).
  { intros c s. destruct s; simpl; ne_err. }
  assert (K4 : forall a b c d s, load4_eq a b c d s <> Err er).
  { intros. destruct s as [|w [|x [|y [|z s]]]]; simpl; ne_err. }
  assert (Kh : forall s, zj_consumeHex s <> Err er).
  { intro s. unfold zj_consumeHex.
    destruct s as [|a s]; simpl; [ne_err|]. destruct (zj_hexCodePoint a <? 16); simpl; [|ne_err].
    destruct s as [|b s]; simpl; [ne_err|]. destruct (zj_hexCodePoint b <? 16); simpl; [|ne_err].
    destruct s as [|c s]; simpl; [ne_err|]. destruct (zj_hexCodePoint c <? 16); simpl; [|ne_err].
    destruct s as [|d s]; simpl; ne_err. }
  assert (Ku : forall D s, u_escape D s <> Err er).
  { intros D s. unfold u_escape. specialize (Kh s) as K.
    destruct (zj_consumeHex s) as [[[v s1]|]|e]; simpl; try ne_err; try ne_err.
    destruct (_ && _); [ne_err|]. destruct (_ && _); [|ne_err].
    destruct s1 as [|x s1]; simpl; [ne_err|]. destruct (x =? 92); [|ne_err].
    destruct s1 as [|y s1]; simpl; [ne_err|]. destruct (y =? 117); [|ne_err].
    specialize (Kh s1). destruct (zj_consumeHex s1) as [[[v' s2]|]|e]; simpl; try ne_err; try ne_err.
    destruct (_ || _); ne_err. }
  assert (Ks : forall s, zj_consumeStr s <> Err er).
  { intro s. remember (length s) as n eqn:Hn. revert s Hn.
    induction n as [n IH] using lt_wf_ind. intros s Hn.
    destruct s as [|c s1]; [ne_err|]. cbn [zj_consumeStr].
    destruct (c =? 0); [ne_err|]. destruct (c <=? 31); [ne_err|].
    destruct (c =? 92).
    - destruct s1 as [|e s2]; [ne_err|]. destruct (simple_escape e).
      + apply (IH (length s2) ltac:(simpl in Hn; lia) s2 eq_refl).
      + destruct (e =? 117); [|ne_err]. specialize (Ku 57343 s2).
        destruct (u_escape 57343 s2) as [[k|]|e']; cbn [rbind]; try ne_err; try ne_err.
        destruct s2 as [|a [|b [|c' [|d s3]]]];
          try (destruct k as [|[|[|[|[|k]]]]]; ne_err).
        assert (Kten : match s3 with
          | _ :: _ :: _ :: _ :: _ :: _ :: s4 => zj_consumeStr s4 | _ => Err EOob end <> Err er).
        { destruct s3 as [|? [|? [|? [|? [|? [|? s4]]]]]]; try ne_err.
          apply (IH (length s4) ltac:(simpl in Hn; lia) s4 eq_refl). }
        destruct k as [|[|[|[|[|k]]]]]; try exact Kten.
        apply (IH (length s3) ltac:(simpl in Hn; lia) s3 eq_refl).
    - destruct (c =? 34); [ne_err|]. apply (IH (length s1) ltac:(simpl in Hn; lia) s1 eq_refl). }
  assert (Kd : forall s, skip_digits s <> Err er).
  { induction s as [|c s IH]; simpl; [ne_err|]. destruct (digitb c); [auto|ne_err]. }
  assert (Kd1 : forall s, digits1 s <> Err er).
  { destruct s as [|c s]; simpl; [ne_err|]. destruct (digitb c); [|ne_err].
    specialize (Kd s). destruct (skip_digits s); simpl; ne_err. }
  assert (Kn : forall s, zj_consumeNum s <> Err er).
  { intro s. unfold zj_consumeNum. destruct s as [|c r0]; [ne_err|]. cbv zeta.
    destruct (if c =? 45 then r0 else c :: r0) as [|d r1]; [ne_err|].
    assert (Ki : (if d =? 48 then Ok (Some r1) else if (49 <=? d) && (d <=? 57)
      then r' <-? skip_digits r1 ;; Ok (Some r') else Ok None) <> Err er).
    { destruct (d =? 48); [ne_err|]. destruct (_ && _); [|ne_err].
      specialize (Kd r1). destruct (skip_digits r1); simpl; ne_err. }
    destruct (if d =? 48 then _ else _) as [[s2|]|e]; cbn [rbind]; try ne_err; try ne_err.
    specialize (Kc 46 s2). destruct (zj_consume 46 s2) as [p|e]; cbn [rbind]; [|ne_err].
    assert (Kp : match p with Some s3 => digits1 s3 | None => Ok (Some s2) end <> Err er).
    { destruct p; [apply Kd1|ne_err]. }
    destruct (match p with Some s3 => digits1 s3 | None => Ok (Some s2) end) as [[s4|]|e];
      cbn [rbind]; try ne_err; try ne_err.
    destruct s4 as [|e r4]; [ne_err|]. destruct (_ || _); [|ne_err].
    destruct r4 as [|g r5]; [ne_err|]. apply Kd1. }
  assert (Kpo : forall ob s, popen ob s <> Err er).
  { intros ob s. unfold popen. specialize (K1 (closer ob) s).
    destruct (zj_peekAndConsume (closer ob) s) as [[b r]|e]; simpl; ne_err. }
  split; [exact K1|]. split; [exact K2|]. split.
  - intro s. unfold pswitch. specialize (K2 s). destruct (zj_peek s) as [[c r]|e]; cbn [rbind]; [|ne_err].
    destruct (c =? 91); [apply Kpo|]. destruct (c =? 123); [apply Kpo|].
    destruct (c =? 110).
    { unfold zj_consumeNull. specialize (K4 110 117 108 108 (c :: r)).
      destruct (load4_eq _ _ _ _ _); cbn [rbind]; ne_err. }
    destruct (c =? 102).
    { unfold zj_consumeFalse. specialize (K4 97 108 115 101 r).
      destruct (load4_eq _ _ _ _ _); cbn [rbind]; ne_err. }
    destruct (c =? 116).
    { unfold zj_consumeTrue. specialize (K4 116 114 117 101 (c :: r)).
      destruct (load4_eq _ _ _ _ _); cbn [rbind]; ne_err. }
    destruct (c =? 34).
    { specialize (Kc 34 r). destruct (zj_consume 34 r) as [[r'|]|e]; cbn [rbind]; try ne_err; try ne_err.
      specialize (Ks r). destruct (zj_consumeStr r); cbn [rbind]; ne_err. }
    specialize (Kn (c :: r)). destruct (zj_consumeNum (c :: r)); cbn [rbind]; ne_err.
  - intros ob s. unfold pkey. destruct ob; [|ne_err].
    specialize (K1 34 s) as Ka. destruct (zj_peekAndConsume 34 s) as [[b r1]|e]; cbn [rbind]; [|ne_err].
    destruct b; [|ne_err]. cbn [negb].
    specialize (Kc 34 r1). destruct (zj_consume 34 r1) as [[r2|]|e]; cbn [rbind]; [| |ne_err].
    + specialize (K1 58 r2). destruct (zj_peekAndConsume 58 r2) as [[b r3]|e]; cbn [rbind]; ne_err.
    + specialize (Ks r1). destruct (zj_consumeStr r1) as [[r2|]|e]; cbn [rbind]; try ne_err; try ne_err.
      specialize (K1 58 r2). destruct (zj_peekAndConsume 58 r2) as [[b r3]|e]; cbn [rbind]; ne_err.
Qed.

Lemma pm_only_oob er (NE : er <> EOob) fuel : forall m j stk r, (length r < fuel)%nat -> pm fuel m j stk r <> Err er.
Proof.
  destruct (lex_only_oob er NE) as (K1 & K2 & K3 & K4).
  induction fuel as [|fuel IH]; intros m j stk r Hl; [lia|].
  destruct stk as [|f fs]; [ne_err|]. cbn [pm]. destruct m.
  - specialize (K4 (fobj f) r). destruct (pkey (fobj f) r) as [[[k r1]|]|e] eqn:Ek; cbn [rbind]; try ne_err; try ne_err.
    apply pkey_len in Ek.
    specialize (K3 r1). destruct (pswitch r1) as [sw|e] eqn:Es; cbn [rbind]; [|ne_err].
    apply pswitch_len in Es. destruct sw; try ne_err; apply IH; lia.
  - specialize (K1 44 r). destruct (zj_peekAndConsume 44 r) as [[b r1]|e] eqn:Eq; cbn [rbind]; [|ne_err].
    apply pac_len in Eq. destruct b; [apply IH; lia|].
    specialize (K2 r1). destruct (zj_peek r1) as [[c r2]|e] eqn:Ep; cbn [rbind]; [|ne_err].
    apply peek_len in Ep. destruct (_ || _); [apply IH; lia|ne_err].
Qed.
Lemma pm_no_fuel fuel m j stk r : (length r < fuel)%nat -> pm fuel m j stk r <> Err EFuel.
Proof. apply pm_only_oob. discriminate. Qed.

Lemma pm_mono fuel : forall m j stk r x k, pm fuel m j stk r = Ok x -> pm (fuel + k) m j stk r = Ok x.
Proof.
  induction fuel as [|fuel IH]; intros m j stk r x k; destruct stk as [|f fs]; cbn [pm Nat.add];
    try discriminate; try (destruct k; simpl; auto; fail); auto.
  destruct m; intro H.
  - apply rbind_Ok in H as (o & -> & H). cbn [rbind]. destruct o as [[key r1]|]; auto.
    apply rbind_Ok in H as (sw & -> & H). cbn [rbind]. destruct sw; auto.
  - apply rbind_Ok in H as ([b r1] & -> & H). cbn [rbind]. destruct b; auto.
    apply rbind_Ok in H as ([c r2] & -> & H). cbn [rbind]. destruct (_ || _); auto.
Qed.
(** Enough fuel: the outcome no longer depends on it. *)
Lemma pm_stable fuel fuel' m j stk r x : pm fuel m j stk r = Ok x ->
  (length r < fuel')%nat -> pm fuel' m j stk r = Ok x.
Proof.
  intros H Hl. pose proof (pm_no_fuel fuel' m j stk r Hl) as Hn.
  destruct (Nat.le_gt_cases fuel fuel') as [L|L].
  - replace fuel' with (fuel + (fuel' - fuel))%nat by lia. now apply pm_mono.
  - assert (G : forall a b, (a <= b)%nat -> pm a m j stk r <> Err EFuel -> pm b m j stk r = pm a m j stk r).
    { clear. intros a b. revert b m j stk r. induction a as [|a IH]; intros b m j stk r Hab Hn.
      - destruct stk; [destruct b; reflexivity|]. exfalso. apply Hn. reflexivity.
      - destruct b as [|b]; [lia|]. destruct stk as [|f fs]; [reflexivity|]. cbn [pm] in *. destruct m.
        + destruct (pkey (fobj f) r) as [[[k r1]|]|e]; cbn [rbind] in *; auto.
          destruct (pswitch r1) as [sw|e]; cbn [rbind] in *; auto.
          destruct sw; auto; apply IH; auto; lia.
        + destruct (zj_peekAndConsume 44 r) as [[c r1]|e]; cbn [rbind] in *; auto.
          destruct c; [apply IH; auto; lia|].
          destruct (zj_peek r1) as [[c r2]|e]; cbn [rbind] in *; auto.
          destruct (_ || _); auto. apply IH; auto; lia. }
    rewrite <- H. symmetry. apply G; auto. lia.
Qed.

Lemma ptop_complete t j slack : json_text t j -> ptop (t ++ 0 :: slack) = Ok (Some j).
Proof.
  intros (w1 & b & w2 & Hw1 & Hb & Hw2 & ->). unfold ptop.
  destruct grammar_machine as (G & _ & _).
  assert (Hst : num_stop (w2 ++ 0 :: slack)) by (apply num_stop_ws; auto; unfold is_digit; lia).
  destruct (G _ _ Hb _ Hst) as [n Hn].
  rewrite <- !app_assoc. rewrite pswitch_pre by auto.
  set (fuel := (2 * length (w1 ++ b ++ w2 ++ 0%N :: slack) + 2)%nat).
  (* a dummy outer frame shows where the machine ends *)
  assert (E : exists sw, pswitch (b ++ w2 ++ 0 :: slack) = Ok sw /\
    match sw with
    | PStop => Ok None
    | PDown ob rest => pm fuel Item JNull [mkFrame ob [] None] rest
    | PBreak j rest => pm fuel Item j [] rest
    end = Ok (Some (j, w2 ++ 0 :: slack))).
  { clear n Hn.
    assert (Kc : forall ob tx items F, jitems ob tx items -> Pitems ob tx items ->
      (length ((opener ob :: tx ++ [closer ob]) ++ w2 ++ 0%N :: slack) < F)%nat ->
      exists sw, pswitch ((opener ob :: tx ++ [closer ob]) ++ w2 ++ 0 :: slack) = Ok sw /\
      match sw with
      | PStop => Ok None
      | PDown ob rest => pm F Item JNull [mkFrame ob [] None] rest
      | PBreak j rest => pm F Item j [] rest
      end = Ok (Some (container ob items, w2 ++ 0 :: slack))).
    { intros ob tx items F Hi HP HF. destruct (HP (w2 ++ 0 :: slack)) as [n Hn].
      destruct (pswitch_open ob tx items (w2 ++ 0 :: slack) Hi) as (w & q & Hw & Eq & Hsw).
      exists (PDown ob q). split; [exact Hsw|].
      apply (pm_stable (n + 0)).
      - rewrite <- (pm_item_pre _ _ _ _ w q Hw), <- Eq, Hn by auto. reflexivity.
      - pose proof (pswitch_len _ _ Hsw) as L. cbv beta iota in L. simpl app in HF. lia. }
    assert (Ks : scalar_text b j -> exists sw, pswitch (b ++ w2 ++ 0 :: slack) = Ok sw /\
      match sw with
      | PStop => Ok None
      | PDown ob rest => pm fuel Item JNull [mkFrame ob [] None] rest
      | PBreak j rest => pm fuel Item j [] rest
      end = Ok (Some (j, w2 ++ 0 :: slack))).
    { intro Hs. exists (PBreak j (w2 ++ 0 :: slack)). split; [now apply pswitch_scalar|].
      unfold fuel. destruct (2 * _ + 2)%nat; reflexivity. }
    destruct grammar_machine as (_ & Ge & Gm).
    subst fuel. destruct Hb; try (apply Ks; exact I).
    - apply Ks. simpl. eauto.
    - rewrite <- container_elems. apply (Kc false); auto; [exists js; auto|].
      rewrite (app_length w1). simpl opener. simpl closer. lia.
    - apply Ks. simpl. eauto.
    - rewrite <- container_members. apply (Kc true); auto; [exists ms; auto|].
      rewrite (app_length w1). simpl opener. simpl closer. lia. }
  destruct E as (sw & -> & E). cbn [rbind]. rewrite E. cbn [rbind].
  rewrite pac_yes by (auto using ws_nonzero). reflexivity.
Qed.

(** ** No read past the text.  [roomy s]: [s] has a 0, and the 4-byte loads of
    zj_consumeNull/True/False from any 'n', 't', 'f' before it stay inside. *)
Definition roomy (s : bytes) : Prop :=
  exists pre post, s = pre ++ 0 :: post /\
    forall a c b, pre = a ++ c :: b ->
      ((c = 110 \/ c = 116) -> (3 <= length b + 1 + length post)%nat) /\
      (c = 102 -> (4 <= length b + 1 + length post)%nat).

Lemma roomy_In s : roomy s -> In 0 s.
Proof. intros (pre & post & -> & _). apply in_or_app. right. left. auto. Qed.

Lemma roomy_after b s : ~ In 0 b -> roomy (b ++ s) -> roomy s.
Proof.
  revert s. induction b as [|x b IH]; intros s Hb H; auto.
  apply IH; [intro; apply Hb; right; auto|].
  destruct H as (pre & post & E & H). destruct pre as [|y pre].
  - injection E as -> _. exfalso. apply Hb. left. auto.
  - injection E as -> E. exists pre, post. split; auto.
    intros a c b' ->. apply (H (y :: a) c b'). reflexivity.
Qed.
Lemma roomy_head c s : roomy (c :: s) -> c <> 0 ->
  ((c = 110 \/ c = 116) -> (3 <= length s)%nat) /\ (c = 102 -> (4 <= length s)%nat).
Proof.
  intros (pre & post & E & H) Hc. destruct pre as [|y pre]; [injection E as -> _; ne_err|].
  injection E as -> ->. rewrite app_length. simpl.
  destruct (H [] y pre eq_refl) as [H1 H2]. split; intro K; [specialize (H1 K)|specialize (H2 K)]; lia.
Qed.

Lemma ws_no0 w : ws w -> ~ In 0 w.
Proof. intros H I. unfold ws in H. rewrite Forall_forall in H. apply H in I. now apply ws_nonzero in I. Qed.

Lemma scalar_no0 t j : jvalue t j -> scalar_text t j -> ~ In 0 t.
Proof.
  intros H Hs. destruct H; try (simpl; lia).
  - now apply number_no0.
  - apply strbody_no0 in H. simpl. rewrite in_app_iff. simpl. intuition lia.
  - apply ws_no0 in H. simpl. rewrite in_app_iff. simpl. intuition lia.
  - destruct Hs as (-> & _). inversion H.
  - apply ws_no0 in H. simpl. rewrite in_app_iff. simpl. intuition lia.
  - destruct Hs as (-> & _). inversion H.
Qed.

Lemma In0_roomy w s : ws w -> roomy (w ++ s) -> roomy s.
Proof. intros Hw. apply roomy_after. now apply ws_no0. Qed.

Lemma pac_roomy c s : c <> 0 -> roomy s -> exists b r, zj_peekAndConsume c s = Ok (b, r) /\ roomy r.
Proof.
  intros Hc H. destruct (pac_safe c s Hc (roomy_In _ H)) as (b & r & E & _).
  exists b, r. split; auto. apply pac_inv in E as (w & Hw & E). destruct b.
  - subst s. apply (In0_roomy _ _ Hw) in H. apply (roomy_after [c]); auto. simpl. intuition.
  - destruct E as (c' & q & -> & _ & _ & ->). apply (In0_roomy _ _ Hw) in H. auto.
Qed.

Lemma load4_ok a b c d s : (4 <= length s)%nat -> exists x, load4_eq a b c d s = Ok x.
Proof. destruct s as [|w [|x [|y [|z s]]]]; simpl; try lia. eauto. Qed.

Lemma pswitch_roomy s : roomy s -> exists sw, pswitch s = Ok sw /\
  match sw with PBreak _ r | PDown _ r => roomy r | PStop => True end.
Proof.
  intro H. assert (K : exists sw, pswitch s = Ok sw).
  { unfold pswitch. destruct (peek_safe s (roomy_In _ H)) as (c & r & E & Hr). rewrite E. cbn [rbind].
    apply peek_inv in E as (w & Hw & Hc & ->). apply (In0_roomy _ _ Hw) in H.
    assert (Kp : forall ob, c = opener ob -> exists sw, popen ob r = Ok sw).
    { intros ob ->. unfold popen.
      destruct (pac_safe (closer ob) r) as (b & r' & -> & _); [destruct ob; discriminate| |cbn [rbind]; eauto].
      destruct Hr; auto. destruct ob; discriminate. }
    destruct (c =? 91) eqn:E1; [apply N.eqb_eq in E1; now apply (Kp false)|].
    destruct (c =? 123) eqn:E2; [apply N.eqb_eq in E2; now apply (Kp true)|].
    destruct (c =? 110) eqn:E3.
    { apply N.eqb_eq in E3. subst. apply roomy_head in H as [H _]; [|lia].
      unfold zj_consumeNull. destruct (load4_ok 110 117 108 108 (110 :: r)) as [x ->].
      - simpl. specialize (H (or_introl eq_refl)). lia.
      - cbn [rbind]. eauto. }
    destruct (c =? 102) eqn:E4.
    { apply N.eqb_eq in E4. subst. apply roomy_head in H as [_ H]; [|lia].
      unfold zj_consumeFalse. destruct (load4_ok 97 108 115 101 r) as [x ->]; auto.
      cbn [rbind]. eauto. }
    destruct (c =? 116) eqn:E5.
    { apply N.eqb_eq in E5. subst. apply roomy_head in H as [H _]; [|lia].
      unfold zj_consumeTrue. destruct (load4_ok 116 114 117 101 (116 :: r)) as [x ->].
      - simpl. specialize (H (or_intror eq_refl)). lia.
      - cbn [rbind]. eauto. }
    destruct (c =? 34) eqn:E6.
    { apply N.eqb_eq in E6. subst. assert (Hr' : In 0 r) by (destruct Hr; [discriminate|auto]).
      destruct r as [|x r]; [destruct Hr'|]. unfold zj_consume. cbn [rbind].
      destruct (x =? 34); [eauto|]. destruct (consumeStr_safe _ Hr') as (o & -> & _). cbn [rbind]. eauto. }
    destruct (consumeNum_safe (c :: r)) as (o & -> & _); [destruct Hr; [left|right]; auto|].
    cbn [rbind]. eauto. }
  destruct K as [sw E]. exists sw. split; auto. apply pswitch_inv in E. destruct sw as [j r|ob r|]; auto.
  - destruct E as (w & t & Hw & Ht & Hs & ->). apply (In0_roomy _ _ Hw) in H.
    eapply roomy_after; [|exact H]. eapply scalar_no0; eauto.
  - destruct E as (w & w' & Hw & Hw' & -> & _). apply (In0_roomy _ _ Hw) in H.
    apply (roomy_after [opener ob]) in H; [|destruct ob; simpl; lia]. now apply (In0_roomy w').
Qed.

Lemma pkey_roomy ob s : roomy s -> exists o, pkey ob s = Ok o /\
  match o with Some (_, r) => roomy r | None => True end.
Proof.
  intro H. destruct ob; [|exists (Some (None, s)); auto].
  assert (K : exists o, pkey true s = Ok o).
  { unfold pkey. destruct (pac_roomy 34 s) as (b & r1 & -> & H1); auto; [lia|]. cbn [rbind].
    destruct b; cbn [negb]; [|eauto]. cbn [negb]. apply roomy_In in H1.
    destruct r1 as [|x r1]; [destruct H1|]. unfold zj_consume. cbn [rbind].
    destruct (x =? 34) eqn:Ex.
    - cbn [rbind]. destruct (pac_safe 58 r1) as (b & r3 & -> & _); [lia| |cbn [rbind]; eauto].
      destruct H1; auto. subst. discriminate.
    - destruct (consumeStr_safe _ H1) as (o & -> & Ho). cbn [rbind]. destruct o as [r2|]; cbn [rbind]; [|eauto].
      destruct (pac_safe 58 r2) as (b & r3 & E3 & _); [lia|exact Ho|]. rewrite E3. cbn [rbind]. eauto. }
  destruct K as [o E]. exists o. split; auto. destruct o as [[k r]|]; auto.
  apply pkey_inv in E as (w & k' & w2 & r3 & Hw & Hk & Hw2 & E & ->). injection E as -> ->.
  apply (In0_roomy _ _ Hw) in H. apply (roomy_after [34]) in H; [|simpl; lia].
  apply roomy_after in H; [|now apply strbody_no0].
  apply (roomy_after [34]) in H; [|simpl; lia]. apply (In0_roomy _ _ Hw2) in H.
  apply (roomy_after [58]) in H; [|simpl; lia]. auto.
Qed.

Lemma pm_roomy fuel : forall m j stk r, (length r < fuel)%nat -> roomy r ->
  exists o, pm fuel m j stk r = Ok o /\ match o with Some (_, r') => roomy r' | None => True end.
Proof.
  induction fuel as [|fuel IH]; intros m j stk r Hl Hr; [lia|].
  destruct stk as [|f fs]; [exists (Some (j, r)); auto|]. cbn [pm]. destruct m.
  - destruct (pkey_roomy (fobj f) r Hr) as (o & E & Ho). rewrite E. cbn [rbind].
    destruct o as [[k r1]|]; [|exists None; auto]. apply pkey_len in E.
    destruct (pswitch_roomy r1 Ho) as (sw & Es & Hs). rewrite Es. cbn [rbind].
    apply pswitch_len in Es. destruct sw; [apply IH; auto; lia|apply IH; auto; lia|exists None; auto].
  - destruct (pac_roomy 44 r) as (b & r1 & E & H1); auto; [lia|]. rewrite E. cbn [rbind].
    pose proof (pac_len _ _ _ _ E) as L. destruct b; [apply IH; auto; lia|].
    destruct (peek_safe r1 (roomy_In _ H1)) as (c & r2 & Ep & Hp). rewrite Ep. cbn [rbind].
    pose proof (peek_len _ _ _ Ep) as L2.
    destruct (((c =? 125) && fobj f) || ((c =? 93) && negb (fobj f))) eqn:Ec; [|exists None; auto].
    apply IH; [lia|]. apply peek_inv in Ep as (w & Hw & Hcw & ->). apply (In0_roomy _ _ Hw) in H1.
    apply (roomy_after [c]); auto. simpl. intros [->|[]]. discriminate Ec.
Qed.

Lemma ptop_total s : roomy s -> exists o, ptop s = Ok o.
Proof.
  intro H. unfold ptop. destruct (pswitch_roomy s H) as (sw & E & Hs). rewrite E. cbn [rbind].
  pose proof (pswitch_len _ _ E) as L.
  assert (K : exists o, match sw with
    | PStop => Ok None
    | PDown ob rest => pm (2 * length s + 2) Item JNull [mkFrame ob [] None] rest
    | PBreak j rest => pm (2 * length s + 2) Item j [] rest
    end = Ok o /\ match o with Some (_, r') => roomy r' | None => True end).
  { destruct sw; [apply pm_roomy; auto; lia|apply pm_roomy; auto; lia|exists None; auto]. }
  destruct K as (o & -> & Ho). cbn [rbind]. destruct o as [[j r]|]; [|eauto].
  destruct (pac0_safe r (roomy_In _ Ho)) as (b & r' & ->). cbn [rbind]. eauto.
Qed.

Lemma ptop_only_oob er (NE : er <> EOob) s : ptop s <> Err er.
Proof.
  destruct (lex_only_oob er NE) as (K1 & K2 & K3 & K4).
  unfold ptop. specialize (K3 s). destruct (pswitch s) as [sw|e] eqn:E; cbn [rbind]; [|ne_err].
  pose proof (pswitch_len _ _ E) as L.
  assert (K : match sw with
    | PStop => Ok None
    | PDown ob rest => pm (2 * length s + 2) Item JNull [mkFrame ob [] None] rest
    | PBreak j rest => pm (2 * length s + 2) Item j [] rest
    end <> Err er).
  { destruct sw; [apply (pm_only_oob er NE); lia|apply (pm_only_oob er NE); lia|ne_err]. }
  destruct (match sw with PStop => _ | _ => _ end) as [[[j r]|]|e]; cbn [rbind]; try ne_err; try ne_err.
  specialize (K1 0 r). destruct (zj_peekAndConsume 0 r) as [[b r']|e]; cbn [rbind]; ne_err.
Qed.
Lemma ptop_no_fuel s : ptop s <> Err EFuel.
Proof. apply ptop_only_oob. discriminate. Qed.
