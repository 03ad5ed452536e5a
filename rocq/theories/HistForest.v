(** The forest of the reference semantics against the documents in memory. *)
From Verif Require Import Base Spec Lex LexProofs Alloc AllocProofs Mem MemProofs Api PureParse Dom Effect Steps StringifyProofs
  SetProofs ParseTop KeyProofs GetProofs CopyProofs LinkProofs MoveProofs Hist.

Definition vimg (nm : N -> addr) (v : nval) : fval :=
  match v with
  | NNull => VNull
  | NBool b => VBool b
  | NNum t => VNum t
  | NStr t => VStr t
  | NCont ob kids => VCont ob (map nm kids)
  end.
(** Node [t] is the node [f] of the documents, [nm] giving the address of every number. *)
Definition img (nm : N -> addr) (t : tnode) (f : fnode) : Prop :=
  fkey f = tkey t /\ fvalue f = vimg nm (tvalue t) /\ fpar f = option_map nm (tpar t).

Record fsim (nm : N -> addr) (n : N) (G : forest) (F : dom) : Prop := {
  fs_node : forall i t, G i = Some t -> exists f, F (nm i) = Some f /\ img nm t f;
  fs_lt : forall i t, G i = Some t -> i < n /\ forall p, tpar t = Some p -> p < n;
  fs_inj : forall i j, G i <> None -> G j <> None -> nm i = nm j -> i = j;
  fs_kids : forall i t ob kids c, G i = Some t -> tvalue t = NCont ob kids -> In c kids ->
    exists tc, G c = Some tc /\ tpar tc = Some i;
  fs_prev : forall i t ob l c r tc f, G i = Some t -> tvalue t = NCont ob (l ++ c :: r) -> G c = Some tc ->
    tprev tc = true -> F (nm c) = Some f -> fprev f = option_map nm (last_error l);
  fs_end : forall i t ob kids f, G i = Some t -> tvalue t = NCont ob kids -> kids <> [] -> tend t = true ->
    F (nm i) = Some f -> fend f = option_map nm (last_error kids);
  fs_stop : forall i t f, G i = Some t -> tstop t = true -> F (nm i) = Some f -> fstop f = true
}.

Lemma fs_bound nm n G F i t : fsim nm n G F -> G i = Some t -> i < n.
Proof. intros S E. exact (proj1 (fs_lt _ _ _ _ S i t E)). Qed.
Lemma fs_pbound nm n G F i t p : fsim nm n G F -> G i = Some t -> tpar t = Some p -> p < n.
Proof. intros S E. exact (proj2 (fs_lt _ _ _ _ S i t E) p). Qed.
(** ** Reading *)
Lemma mapo_in {X Y} (f : X -> option Y) l r : mapo f l = Some r -> Forall2 (fun x y => f x = Some y) l r.
Proof.
  revert r. induction l as [|x l IH]; cbn; intros r H; [injection H as <-; constructor|].
  destruct (f x) eqn:E; [|discriminate]. destruct (mapo f l) eqn:E'; [|discriminate]. injection H as <-. constructor; auto.
Qed.
Lemma read_reads nm n G F k : fsim nm n G F -> forall i j, read k G i = Some j -> reads F (nm i) j.
Proof.
  intro S. induction k as [|k IH]; cbn [read]; intros i j H; [discriminate|].
  destruct (G i) as [t|] eqn:E; [|discriminate]. destruct (fs_node _ _ _ _ S i t E) as (f & Ef & _ & Ev & _).
  destruct (tvalue t) as [|b|b|b|ob kids] eqn:Et; cbn [vimg] in Ev.
  - injection H as <-. econstructor; eauto.
  - injection H as <-. econstructor; eauto.
  - injection H as <-. econstructor; eauto.
  - injection H as <-. econstructor; eauto.
  - destruct (mapo _ kids) as [items|] eqn:Em; [|discriminate]. cbn in H. injection H as <-.
    econstructor; eauto. apply mapo_in in Em. clear - S IH Em. induction Em as [|c kj kids items Hc _ IHl]; [constructor|].
    destruct (G c) as [tc|] eqn:Ec; [|discriminate]. destruct (read k G c) as [j|] eqn:Er; [|discriminate]. injection Hc as <-.
    destruct (fs_node _ _ _ _ S c tc Ec) as (fc & Fc & Ek & _). cbn [map]. rewrite <- Ek. constructor; auto.
Qed.

(** ** Planting a value *)
Fixpoint plantL (i : N) (items : list (option bytes * json)) (n : N) : list N * forest * N :=
  match items with
  | [] => ([], noforest, n)
  | (k, x) :: r =>
      let '(v, h1, n1) := plant n x (n + 1) in
      let '(ks, h2, n2) := plantL i r n1 in
      (n :: ks, put (over h1 h2) n (mkT k v (Some i) true true false), n2)
  end.
Lemma plant_arr i l n : plant i (JArr l) n =
  let '(ks, h, n') := plantL i (map (fun x => (None, x)) l) n in (NCont false ks, h, n').
Proof.
  assert (E : forall l n, (fix go l n := match l with
                       | [] => ([], noforest, n)
                       | x :: r =>
                           let '(v, h1, n1) := plant n x (n + 1) in
                           let '(ks, h2, n2) := go r n1 in
                           (n :: ks, put (over h1 h2) n (mkT None v (Some i) true true false), n2)
                       end) l n = plantL i (map (fun x => (None, x)) l) n).
  { clear. induction l as [|x l IH]; intro n; [reflexivity|]. cbn [map plantL].
    destruct (plant n x (n + 1)) as [[v h1] n1]. now rewrite IH. }
  rewrite <- E. reflexivity.
Qed.
Lemma plant_obj i l n : plant i (JObj l) n =
  let '(ks, h, n') := plantL i (map (fun kx => (Some (fst kx), snd kx)) l) n in (NCont true ks, h, n').
Proof.
  assert (E : forall l n, (fix go l n := match l with
                       | [] => ([], noforest, n)
                       | (k, x) :: r =>
                           let '(v, h1, n1) := plant n x (n + 1) in
                           let '(ks, h2, n2) := go r n1 in
                           (n :: ks, put (over h1 h2) n (mkT (Some k) v (Some i) true true false), n2)
                       end) l n = plantL i (map (fun kx => (Some (fst kx), snd kx)) l) n).
  { clear. induction l as [|[k x] l IH]; intro n; [reflexivity|]. cbn [map plantL fst snd].
    destruct (plant n x (n + 1)) as [[v h1] n1]. now rewrite IH. }
  rewrite <- E. reflexivity.
Qed.
Lemma plant_container (ob : bool) items i n : (forall kj : option bytes * json, In kj items -> if ob then fst kj <> None else fst kj = None) ->
  plant i (container ob items) n = (let '(ks, h, n') := plantL i items n in (NCont ob ks, h, n')).
Proof.
  intro K. unfold container. destruct ob.
  - rewrite plant_obj, map_map. cbn [fst snd].
    replace (map (fun x : option bytes * json => (Some (okey (fst x)), snd x)) items) with items; auto.
    rewrite <- (map_id items) at 1. apply map_ext_in. intros [k x] Hk. apply K in Hk. cbn in *. destruct k; [reflexivity|congruence].
  - rewrite plant_arr, map_map.
    replace (map (fun x : option bytes * json => (None, snd x)) items) with items; auto.
    rewrite <- (map_id items) at 1. apply map_ext_in. intros [k x] Hk. apply K in Hk. cbn in *. now subst.
Qed.
Lemma NoDup_app_disj {X} (l l' : list X) : NoDup l -> NoDup l' -> (forall x, In x l -> In x l' -> False) -> NoDup (l ++ l').
Proof.
  induction l as [|y l IH]; cbn; intros H H' D; auto. inversion H; subst. constructor; [|apply IH; eauto].
  rewrite in_app_iff. intros [X1|X1]; eauto.
Qed.
Definition agrees (nm : N -> addr) (n : N) (m : list addr) : Prop :=
  forall d x, nth_error m d = Some x -> nm (n + N.of_nat d) = x.
Lemma agrees_cons nm n x m : agrees nm n (x :: m) <-> nm n = x /\ agrees nm (n + 1) m.
Proof.
  split.
  - intro H. split; [specialize (H O x eq_refl); cbn in H; now rewrite N.add_0_r in H|].
    intros d y E. specialize (H (S d) y E). rewrite <- H. f_equal. lia.
  - intros [H1 H2] [|d] y E; cbn in E; [injection E as <-; cbn; now rewrite N.add_0_r|].
    rewrite <- (H2 d y E). f_equal. lia.
Qed.
Lemma agrees_app nm n m m' : agrees nm n (m ++ m') <-> agrees nm n m /\ agrees nm (n + lenN m) m'.
Proof.
  revert n. induction m as [|x m IH]; intro n; cbn [app].
  - unfold lenN. cbn. rewrite N.add_0_r. split; [intro H; split; auto; intros [|d] y; discriminate|tauto].
  - rewrite !agrees_cons, IH. replace (n + 1 + lenN m) with (n + lenN (x :: m)) by (unfold lenN; cbn [length]; lia). tauto.
Qed.

Definition planted (F : dom) (nm : N -> addr) (h : forest) : Prop :=
  (forall k t, h k = Some t -> tprev t = true /\ tend t = true /\ tstop t = false /\ exists f, F (nm k) = Some f /\ img nm t f) /\
  (forall k t ob kids c, h k = Some t -> tvalue t = NCont ob kids -> In c kids -> exists tc, h c = Some tc /\ tpar tc = Some k).
Definition range (h : forest) (n n' : N) : Prop := forall k, h k <> None <-> n <= k < n'.
Definition parents (h : forest) (i n n' : N) : Prop := forall k t p, h k = Some t -> tpar t = Some p -> p = i \/ n <= p < n'.

Lemma range_no n : range noforest n n.
Proof. intro k. unfold noforest. split; [congruence|lia]. Qed.
Lemma planted_no F nm : planted F nm noforest.
Proof. split; discriminate. Qed.

Lemma plant_ok F : wfdom F ->
  (forall a j, reads F a j -> forall i n, let '(v, h, n') := plant i j n in
     n <= n' /\ range h n n' /\ parents h i n n' /\ exists m, n' = n + lenN m /\ NoDup m /\ (forall x, In x m -> sbelow F a x) /\
     forall nm, nm i = a -> agrees nm n m -> (exists f, F a = Some f /\ fvalue f = vimg nm v) /\ planted F nm h /\
       (forall ob kids c, v = NCont ob kids -> In c kids -> exists tc, h c = Some tc /\ tpar tc = Some i)) /\
  (forall kids items, readsL F kids items -> forall p i n, NoDup kids ->
     (forall c fc, In c kids -> F c = Some fc -> fpar fc = Some p) ->
     (forall c, In c kids -> ~ sbelow F c c) ->
     (forall c c' b, In c kids -> In c' kids -> below F c b -> below F c' b -> c = c') ->
     let '(ks, h, n') := plantL i items n in
     n <= n' /\ range h n n' /\ parents h i n n' /\
     exists m, n' = n + lenN m /\ NoDup m /\ (forall x, In x m -> exists c, In c kids /\ below F c x) /\
     forall nm, nm i = p -> agrees nm n m -> map nm ks = kids /\ planted F nm h /\
       (forall c, In c ks -> exists tc, h c = Some tc /\ tpar tc = Some i)).
Proof.
  intro D.
  assert (Sc : forall a f v i n, F a = Some f -> (forall nm, fvalue f = vimg nm v) -> (forall ob kids, v <> NCont ob kids) ->
     n <= n /\ range noforest n n /\ parents noforest i n n /\ exists m, n = n + lenN m /\ NoDup m /\ (forall x, In x m -> sbelow F a x) /\
     forall nm, nm i = a -> agrees nm n m -> (exists f, F a = Some f /\ fvalue f = vimg nm v) /\ planted F nm noforest /\
       (forall ob kids c, v = NCont ob kids -> In c kids -> exists tc, noforest c = Some tc /\ tpar tc = Some i)).
  { intros a f v i n Ha Hv Nv. split; [lia|]. split; [apply range_no|]. split; [discriminate|]. exists []. split; [unfold lenN; cbn; lia|].
    split; [constructor|]. split; [intros x []|]. intros nm _ _. split; [exists f; auto|]. split; [apply planted_no|]. intros. now elim (Nv ob kids). }
  apply reads_mutind.
  - intros a f Ha Hv i n. cbn [plant]. eapply Sc; eauto; discriminate.
  - intros a f b Ha Hv i n. cbn [plant]. eapply Sc; eauto; discriminate.
  - intros a f b Ha Hv i n. cbn [plant]. eapply Sc; eauto; discriminate.
  - intros a f b Ha Hv i n. cbn [plant]. eapply Sc; eauto; discriminate.
  - intros a f ob kids items Ha Hv Rl IH i n.
    destruct (D a f Ha) as [D1 _]. destruct (D1 ob kids Hv) as [Ch _].
    assert (Ac : ~ sbelow F a a) by (eapply (proj1 (reads_acyclic F)), rd_cont; eauto).
    rewrite plant_container.
    2:{ intros kj Hkj. apply (readsL_keyed _ _ _ _ _ Ch Rl kj Hkj). }
    assert (Nd : NoDup kids) by (eapply chain_NoDup; eauto).
    specialize (IH a i n Nd). destruct (plantL i items n) as [[ks h] n'].
    destruct IH as (L & Rg & Pp & m & Em & Nm & Bm & K).
    + intros c fc Hc Fc. destruct (chain_in _ _ _ _ _ Ch Hc) as (g & G1 & G2 & _). congruence.
    + intros c Hc. eapply (proj2 (reads_acyclic F)); eauto.
    + intros c c' b Hc Hc'. eapply kids_apart; eauto.
    + split; auto. split; auto. split; auto. exists m. split; auto. split; auto. split.
      * intros x Hx. destruct (Bm x Hx) as (c & Hc & B). exists f, ob, kids, c. auto.
      * intros nm Ei Ag. destruct (K nm Ei Ag) as (K1 & K2 & K3). split; [exists f; split; auto; cbn [vimg]; now rewrite K1|].
        split; auto. intros ob' ks' c E Hc. injection E as <- <-. auto.
  - intros p i n _ _ _ _. cbn [plantL]. split; [lia|]. split; [apply range_no|]. split; [discriminate|]. exists []. split; [unfold lenN; cbn; lia|].
    split; [constructor|]. split; [intros x []|]. intros nm _ _. split; auto. split; [apply planted_no|]. intros c [].
  - intros c kids fc j items Fc R IH Rl IHl p i n Nd Hp Hac Hap. cbn [plantL].
    specialize (IH n (n + 1)). destruct (plant n j (n + 1)) as [[v h1] n1].
    destruct IH as (L1 & Rg1 & Pp1 & m1 & Em1 & Nm1 & Bm1 & K1).
    inversion Nd as [|? ? Nc Nd']. subst.
    specialize (IHl p i (n + 1 + lenN m1) Nd'). destruct (plantL i items (n + 1 + lenN m1)) as [[ks h2] n2].
    destruct IHl as (L2 & Rg2 & Pp2 & m2 & Em2 & Nm2 & Bm2 & K2).
    { intros c' fc' Hc'. apply Hp. now right. }
    { intros c' Hc'. apply Hac. now right. }
    { intros x y b Hx Hy. apply Hap; now right. }
    split; [lia|]. split; [|split].
    { intro k. unfold put, over. destruct (N.eqb_spec k n) as [->|Nk]; [split; [lia|discriminate]|].
      specialize (Rg1 k). specialize (Rg2 k). destruct (h1 k) as [t|] eqn:E1.
      - assert (Some t <> None) as X by discriminate. apply Rg1 in X. split; [lia|discriminate].
      - rewrite Rg2. split; [lia|]. intro X. destruct (N.lt_ge_cases k (n + 1 + lenN m1)) as [Y|Y]; [|lia].
        assert (n + 1 <= k < n + 1 + lenN m1) as Z by lia. apply Rg1 in Z. congruence. }
    { intros k t q Hk Hq. unfold put, over in Hk. destruct (N.eqb_spec k n) as [->|Nk].
      - injection Hk as <-. cbn [tpar] in Hq. injection Hq as <-. now left.
      - destruct (h1 k) as [t1|] eqn:E1.
        + injection Hk as <-. destruct (Pp1 _ _ _ E1 Hq) as [->|X]; right; lia.
        + destruct (Pp2 _ _ _ Hk Hq) as [->|X]; [now left|right; lia]. }
    exists (c :: m1 ++ m2). split; [unfold lenN in *; cbn [length]; rewrite app_length; lia|]. split.
    { constructor.
      - rewrite in_app_iff. intros [X|X].
        + apply Bm1 in X. now apply (Hac c (or_introl eq_refl)).
        + apply Bm2 in X as (c' & Hc' & B). assert (c = c') by (apply (Hap c c' c); auto using bl_self; [now left|now right]). now subst.
      - apply NoDup_app_disj; auto. intros x Hx Hx'. apply Bm1, sbelow_below in Hx. apply Bm2 in Hx' as (c' & Hc' & B).
        assert (c = c') by (apply (Hap c c' x); auto; [now left|now right]). now subst. }
    split.
    { intros x [<-|X]; [exists c; split; [now left|constructor]|]. apply in_app_iff in X as [X|X].
      - exists c. split; [now left|]. now apply sbelow_below, Bm1.
      - apply Bm2 in X as (c' & Hc' & B). exists c'. split; auto. now right. }
    intros nm Ei Ag. apply agrees_cons in Ag as [En Ag]. apply agrees_app in Ag as [Ag1 Ag2].
    destruct (K1 nm En Ag1) as ((f & Ff & Fv) & [P1 P2] & P3). destruct (K2 nm Ei Ag2) as (Q1 & [Q2 Q3] & Q4).
    replace f with fc in * by congruence.
    assert (Hn : h1 n = None).
    { destruct (h1 n) eqn:X; auto. assert (h1 n <> None) as Y by congruence. apply Rg1 in Y. lia. }
    assert (Hd : forall k t, h2 k = Some t -> h1 k = None).
    { intros k t X. destruct (h1 k) eqn:Y; auto. assert (h1 k <> None) as Y' by congruence. apply Rg1 in Y'.
      assert (h2 k <> None) as X' by congruence. apply Rg2 in X'. lia. }
    assert (Hn2 : forall k t, h2 k = Some t -> k <> n).
    { intros k t X ->. assert (h2 n <> None) as X' by congruence. apply Rg2 in X'. lia. }
    assert (Hn1 : forall k t, h1 k = Some t -> k <> n) by congruence.
    assert (S1 : forall k t, h1 k = Some t -> put (over h1 h2) n (mkT (fkey fc) v (Some i) true true false) k = Some t).
    { intros k t X. unfold put, over. destruct (N.eqb_spec k n) as [E|_]; [now apply Hn1 in X|]. now rewrite X. }
    assert (S2 : forall k t, h2 k = Some t -> put (over h1 h2) n (mkT (fkey fc) v (Some i) true true false) k = Some t).
    { intros k t X. unfold put, over. destruct (N.eqb_spec k n) as [E|_]; [now apply Hn2 in X|]. now rewrite (Hd k t X). }
    assert (S0 : put (over h1 h2) n (mkT (fkey fc) v (Some i) true true false) n = Some (mkT (fkey fc) v (Some i) true true false)).
    { unfold put. now rewrite N.eqb_refl. }
    assert (Inv : forall k t, put (over h1 h2) n (mkT (fkey fc) v (Some i) true true false) k = Some t ->
      (k = n /\ t = mkT (fkey fc) v (Some i) true true false) \/ h1 k = Some t \/ h2 k = Some t).
    { intros k t X. unfold put, over in X. destruct (N.eqb_spec k n) as [E|_]; [left; split; congruence|]. destruct (h1 k); auto. }
    split; [|split; [split|]].
    + cbn [map]. rewrite En. now f_equal.
    + intros k t X. apply Inv in X as [[-> ->]|[X|X]]; auto. cbn [tprev tend tstop]. split; auto. split; auto. split; auto. rewrite En. exists fc. split; auto.
      split; [reflexivity|]. split; [exact Fv|]. cbn [tpar option_map]. rewrite Ei. apply (Hp c); auto. now left.
    + intros k t ob kids' c' X Y Z. apply Inv in X as [[-> ->]|[X|X]].
      * cbn [tvalue] in Y. destruct (P3 _ _ _ Y Z) as (tc & X1 & X2). eauto.
      * destruct (P2 _ _ _ _ _ X Y Z) as (tc & X1 & X2). eauto.
      * destruct (Q3 _ _ _ _ _ X Y Z) as (tc & X1 & X2). eauto.
    + intros c' [<-|X]; [eexists; split; [exact S0|reflexivity]|]. destruct (Q4 c' X) as (tc & X1 & X2). eauto.
Qed.

(** ** Lists *)
Lemma last_map {X Y} (f : X -> Y) l : last_error (map f l) = option_map f (last_error l).
Proof. unfold last_error. rewrite <- map_rev. now destruct (rev l). Qed.
Lemma last_cons {X} (x : X) l : last_error (x :: l) = match last_error l with Some y => Some y | None => Some x end.
Proof. exact (last_app [] x l). Qed.
Lemma prevs_split F kids : forall p l c r, prevs F p kids -> kids = l ++ c :: r ->
  exists f, F c = Some f /\ fprev f = match last_error l with Some x => Some x | None => p end.
Proof.
  induction kids as [|k kids IH]; intros p l c r H E; [destruct l; discriminate|]. cbn [prevs] in H. destruct H as [H1 H2].
  destruct l as [|x l]; cbn [app] in E; injection E as <- E; [exact H1|].
  destruct (IH (Some k) l c r H2 E) as (f & A & B). exists f. split; auto. rewrite B, last_cons. now destruct (last_error l).
Qed.
Lemma option_map_ext_in {X Y} (f g : X -> Y) o : (forall x, o = Some x -> f x = g x) -> option_map f o = option_map g o.
Proof. destruct o; cbn; intro H; auto. now rewrite H. Qed.
Lemma agrees_nth nm n m k : agrees nm n m -> n <= k < n + lenN m -> In (nm k) m.
Proof.
  intros Ag H. destruct (nth_error m (N.to_nat (k - n))) as [x|] eqn:E.
  - specialize (Ag _ _ E). rewrite N2Nat.id in Ag. replace (n + (k - n)) with k in Ag by lia. rewrite Ag. eapply nth_error_In; eauto.
  - apply nth_error_None in E. unfold lenN in H. lia.
Qed.
Lemma agrees_inj nm n m j k : agrees nm n m -> NoDup m -> n <= j < n + lenN m -> n <= k < n + lenN m -> nm j = nm k -> j = k.
Proof.
  intros Ag ND Hj Hk E. 
  assert (Kj : nth_error m (N.to_nat (j - n)) = Some (nm j)).
  { destruct (nth_error m (N.to_nat (j - n))) as [x|] eqn:X; [|apply nth_error_None in X; unfold lenN in Hj; lia].
    f_equal. specialize (Ag _ _ X). rewrite N2Nat.id in Ag. now replace (n + (j - n)) with j in Ag by lia. }
  assert (Kk : nth_error m (N.to_nat (k - n)) = Some (nm k)).
  { destruct (nth_error m (N.to_nat (k - n))) as [x|] eqn:X; [|apply nth_error_None in X; unfold lenN in Hk; lia].
    f_equal. specialize (Ag _ _ X). rewrite N2Nat.id in Ag. now replace (n + (k - n)) with k in Ag by lia. }
  assert (N.to_nat (j - n) = N.to_nat (k - n)); [|lia].
  apply (proj1 (NoDup_nth_error m) ND); [apply nth_error_Some; congruence|congruence].
Qed.

(** ** New content *)
Section Grow.
Variables (nm : N -> addr) (n : N) (G : forest) (F F' : dom) (i n1 : N) (a : addr) (j : json).
Variables (key : option bytes) (par : option N) (prv : bool) (f' : fnode).
Hypothesis S : fsim nm n G F.
Hypothesis D' : wfdom F'.
Hypothesis Hn1 : n <= n1.
Hypothesis Hi : i < n1.
Hypothesis Old : forall x f, F x = Some f -> x <> a -> F' x = Some f.
Hypothesis Fa : F' a = Some f'.
Hypothesis Ra : reads F' a j.
Hypothesis Key : fkey f' = key.
Hypothesis Par : fpar f' = option_map nm par.
Hypothesis Tidy : forall x, F' x <> None -> F x = None \/ x = a -> tidy F' x.
Hypothesis Closed : forall x f ob kids c, F' x = Some f -> F x = None \/ x = a -> fvalue f = VCont ob kids -> In c kids -> F c = None.
Hypothesis At_ : match G i with
                 | Some t => nm i = a /\ (exists f, F a = Some f /\ fprev f' = fprev f) /\ par = tpar t /\ prv = tprev t
                 | None => n <= i /\ F a = None /\ par = None
                 end.

Lemma grow_below x : below F' a x -> x = a \/ F x = None.
Proof.
  induction 1 as [|b f ob kids c _ IH Fb Vb Hc]; [now left|]. right. eapply (Closed b); eauto. tauto.
Qed.
Lemma grow_sbelow x : sbelow F' a x -> F x = None.
Proof.
  intros (f & ob & kids & c & E & V & Hc & B).
  assert (Fc : F c = None) by (eapply (Closed a); eauto).
  revert Fc. induction B as [|b fb obb kb c' _ IH Fb Vb Hc']; intro Fc; auto. eapply (Closed b); eauto.
Qed.
Lemma grow_acyclic : ~ sbelow F' a a.
Proof. eapply (proj1 (reads_acyclic F')); eauto. Qed.

Theorem grow : let '(v, g, n') := plant i j n1 in
  exists nm', (forall k, k < n -> nm' k = nm k) /\ nm' i = a /\ n1 <= n' /\
    (forall k, n1 <= k < n' -> F (nm' k) = None /\ sbelow F' a (nm' k)) /\
    fsim nm' n' (put (over g G) i (mkT key v par prv true false)) F'.
Proof.
  pose proof (proj1 (plant_ok F' D') a j Ra i n1) as P. destruct (plant i j n1) as [[v g] n'].
  destruct P as (L & Rg & Pp & m & Em & Nd & Bm & K).
  set (nm' := fun k => if (n1 <=? k) && (k <? n') then nth (N.to_nat (k - n1)) m a else if k =? i then a else nm k).
  assert (Ei : nm' i = a).
  { unfold nm'. destruct (N.leb_spec n1 i); [lia|]. cbn. now rewrite N.eqb_refl. }
  assert (Lo : forall k, k < n -> nm' k = nm k).
  { intros k Hk. unfold nm'. destruct (N.leb_spec n1 k); [lia|]. cbn [andb]. destruct (N.eqb_spec k i) as [->|_]; auto.
    destruct (G i); [symmetry; apply At_|]. lia. }
  assert (Ag : agrees nm' n1 m).
  { intros d x Hd. unfold nm'. assert (d < length m)%nat by (apply nth_error_Some; congruence).
    destruct (N.leb_spec n1 (n1 + N.of_nat d)); [|lia]. destruct (N.ltb_spec (n1 + N.of_nat d) n'); [|unfold lenN in Em; lia].
    cbn [andb]. replace (N.to_nat (n1 + N.of_nat d - n1)) with d by lia. now apply nth_error_nth. }
  destruct (K nm' Ei Ag) as ((fa & Fa' & Va) & [P1 P2] & P3). replace fa with f' in * by congruence. clear fa Fa'.
  assert (New : forall k, n1 <= k < n' -> sbelow F' a (nm' k)).
  { intros k Hk. apply Bm. eapply agrees_nth; eauto. lia. }
  assert (Gi : G i = None -> F a = None) by (intro E; rewrite E in At_; apply At_).
  assert (Na : forall k, G k <> None -> k <> i -> nm k <> a).
  { intros k Hk Nk E. destruct (G i) as [t|] eqn:X.
    - destruct At_ as [Y _]. apply Nk. eapply (fs_inj _ _ _ _ S); congruence.
    - destruct (G k) as [tk|] eqn:Ek; [|congruence]. destruct (fs_node _ _ _ _ S k tk Ek) as (f & Ff & _). rewrite E, Gi in Ff by auto. discriminate. }
  assert (OldG : forall k t, G k = Some t -> k <> i -> exists f, F (nm k) = Some f /\ F' (nm k) = Some f /\ nm' k = nm k /\ img nm t f).
  { intros k t E Nk. destruct (fs_node _ _ _ _ S k t E) as (f & Ff & Im). exists f. split; auto. split; [|split; auto].
    - apply Old; auto. apply Na; congruence.
    - apply Lo. eapply fs_bound; eauto. }
  assert (Img : forall t f k, G k = Some t -> img nm t f -> img nm' t f).
  { intros t f k E (A & B & C). split; auto. split.
    - rewrite B. destruct (tvalue t) as [| | | |ob kids] eqn:V; cbn [vimg]; auto. f_equal. apply map_ext_in. intros c Hc. symmetry. apply Lo.
      destruct (fs_kids _ _ _ _ S k t ob kids c E V Hc) as (tc & Ec & _). eapply fs_bound; eauto.
    - rewrite C. apply option_map_ext_in. intros p Hp. symmetry. apply Lo. eapply fs_pbound; eauto. }
  assert (Inv : forall k t, put (over g G) i (mkT key v par prv true false) k = Some t ->
    (k = i /\ t = mkT key v par prv true false) \/ (k <> i /\ n1 <= k < n' /\ g k = Some t) \/ (k <> i /\ k < n /\ G k = Some t)).
  { intros k t E. unfold put, over in E. destruct (N.eqb_spec k i) as [->|Nk]; [left; split; congruence|]. right.
    destruct (g k) eqn:Eg.
    - left. split; auto. split; [|congruence]. apply Rg. congruence.
    - right. split; auto. split; [|auto]. eapply fs_bound; eauto. }
  assert (PutI : put (over g G) i (mkT key v par prv true false) i = Some (mkT key v par prv true false)) by (unfold put; now rewrite N.eqb_refl).
  assert (PutG : forall k t, g k = Some t -> put (over g G) i (mkT key v par prv true false) k = Some t).
  { intros k t E. unfold put, over. destruct (N.eqb_spec k i) as [->|Nk]; [|now rewrite E].
    assert (n1 <= i < n') by (apply Rg; congruence). lia. }
  assert (PutO : forall k t, G k = Some t -> k <> i -> put (over g G) i (mkT key v par prv true false) k = Some t).
  { intros k t E Nk. unfold put, over. destruct (N.eqb_spec k i) as [->|_]; [easy|]. destruct (g k) eqn:Eg; auto.
    assert (n1 <= k < n') by (apply Rg; congruence). pose proof (proj1 (fs_lt _ _ _ _ S k t E)). lia. }
  assert (ParLt : forall p, par = Some p -> p < n).
  { intros p Hp. destruct (G i) as [t|] eqn:X.
    - destruct At_ as (_ & _ & E & _). eapply fs_pbound; eauto. congruence.
    - destruct At_ as (_ & _ & E). congruence. }
  exists nm'. split; auto. split; auto. split; auto. split; [intros k Hk; split; [apply grow_sbelow|]; auto|]. constructor.
  - intros k t E. apply Inv in E as [[-> ->]|[(Nk & Rk & E)|(Nk & Lk & E)]].
    + rewrite Ei. exists f'. split; auto. split; auto. split; auto. cbn [tpar]. rewrite Par. apply option_map_ext_in.
      intros p Hp. symmetry. apply Lo. auto.
    + apply P1 in E. tauto.
    + destruct (OldG k t E Nk) as (f & _ & E2 & E3 & Im). rewrite E3. exists f. split; auto. eapply Img; eauto.
  - intros k t E. apply Inv in E as [[-> ->]|[(Nk & Rk & E)|(Nk & Lk & E)]].
    + split; [lia|]. cbn [tpar]. intros p Hp. apply ParLt in Hp. lia.
    + split; [lia|]. intros p Hp. destruct (Pp _ _ _ E Hp) as [->|X]; lia.
    + split; [lia|]. intros p Hp. pose proof (proj2 (fs_lt _ _ _ _ S k t E) p Hp). lia.
  - assert (Sep : forall k k', (n1 <= k < n') -> (k' = i \/ G k' <> None /\ k' <> i) -> nm' k <> nm' k').
    { intros k k' Hk Hk' E. pose proof (New k Hk) as B. destruct Hk' as [->|[Gk Nk]].
      - rewrite E, Ei in B. now apply grow_acyclic.
      - destruct (G k') as [t|] eqn:X; [|congruence]. destruct (OldG k' t X Nk) as (f & E1 & E2 & E3 & _).
        apply grow_sbelow in B. rewrite E, E3 in B. congruence. }
    assert (Cl : forall k, put (over g G) i (mkT key v par prv true false) k <> None -> (n1 <= k < n') \/ (k = i \/ G k <> None /\ k <> i)).
    { intros k Hk. destruct (put (over g G) i (mkT key v par prv true false) k) as [t|] eqn:E; [|congruence].
      apply Inv in E as [[-> ->]|[(Nk & Rk & E)|(Nk & Lk & E)]]; auto. right. right. split; congruence. }
    intros x y Hx Hy E. apply Cl in Hx. apply Cl in Hy. destruct Hx as [Hx|Hx], Hy as [Hy|Hy].
    + rewrite Em in *. eapply agrees_inj; eauto.
    + now apply Sep in E.
    + symmetry in E. now apply Sep in E.
    + assert (Z : forall k k', k = i -> G k' <> None -> k' <> i -> nm' k = nm' k' -> False).
      { intros k k' -> Gk Nk E'. destruct (G k') as [t|] eqn:X; [|congruence]. destruct (OldG k' t X Nk) as (f & E1 & E2 & E3 & _).
        rewrite Ei, E3 in E'. symmetry in E'. revert E'. apply Na; congruence. }
      destruct Hx as [->|[Gx Nx]], Hy as [->|[Gy Ny]]; auto.
      * exfalso. eauto.
      * exfalso. symmetry in E. eauto.
      * destruct (G x) as [tx|] eqn:X; [|congruence]. destruct (OldG x tx X Nx) as (f & _ & _ & E3 & _).
        destruct (G y) as [ty|] eqn:Y; [|congruence]. destruct (OldG y ty Y Ny) as (f2 & _ & _ & E4 & _).
        apply (fs_inj _ _ _ _ S); congruence.
  - intros k t ob kids c E V Hc. apply Inv in E as [[-> ->]|[(Nk & Rk & E)|(Nk & Lk & E)]].
    + cbn [tvalue] in V. destruct (P3 _ _ _ V Hc) as (tc & X & Y). exists tc. split; auto.
    + destruct (P2 _ _ _ _ _ E V Hc) as (tc & X & Y). exists tc. split; auto.
    + destruct (fs_kids _ _ _ _ S k t ob kids c E V Hc) as (tc & X & Y).
      destruct (N.eq_dec c i) as [->|Nc]; [|exists tc; split; auto].
      exists (mkT key v par prv true false). split; auto. cbn [tpar]. rewrite X in At_. destruct At_ as (_ & _ & -> & _). auto.
  - assert (Tp : forall k v0 f ob l c r fc, fvalue f = vimg nm' v0 -> F' (nm' k) = Some f -> F (nm' k) = None \/ nm' k = a ->
        v0 = NCont ob (l ++ c :: r) -> F' (nm' c) = Some fc -> fprev fc = option_map nm' (last_error l)).
    { intros k v0 f ob l c r fc V E Hk -> Ec. cbn [vimg] in V. assert (T : tidy F' (nm' k)) by (apply Tidy; auto; congruence).
      destruct (T f ob _ E V) as [_ Pr]. rewrite map_app in Pr. cbn [map] in Pr.
      destruct (prevs_split F' _ None (map nm' l) (nm' c) (map nm' r) Pr eq_refl) as (f2 & X & Y).
      rewrite last_map in Y. replace fc with f2 by congruence. rewrite Y. now destruct (last_error l). }
    intros k t ob l c r tc fc E V Ec Pc Fc. apply Inv in E as [[-> ->]|[(Nk & Rk & E)|(Nk & Lk & E)]].
    + cbn [tvalue] in V. eapply (Tp i v f'); eauto; congruence.
    + destruct (P1 k t E) as (_ & _ & _ & f & Ff & _ & Vf & _). eapply (Tp k (tvalue t) f); eauto. left. now apply grow_sbelow, New.
    + assert (Ci : In c (l ++ c :: r)) by (apply in_app_iff; right; now left).
      destruct (fs_kids _ _ _ _ S k t ob _ c E V Ci) as (tc0 & X & Y).
      assert (El : option_map nm' (last_error l) = option_map nm (last_error l)).
      { apply option_map_ext_in. intros x Hx. apply Lo. apply last_in in Hx.
        destruct (fs_kids _ _ _ _ S k t ob _ x E V) as (tx & Ex & _); [apply in_app_iff; now left|]. eapply fs_bound; eauto. }
      rewrite El. destruct (N.eq_dec c i) as [->|Nc].
      * rewrite X in At_. destruct At_ as (Ea & (f & Ff & Pf) & _ & Epr). rewrite PutI in Ec. injection Ec as <-. cbn [tprev] in Pc.
        rewrite Ei in Fc. replace fc with f' by congruence. rewrite Pf. rewrite <- Ea in Ff.
        eapply (fs_prev _ _ _ _ S k t ob l i r tc0 f); eauto; congruence.
      * destruct (OldG c tc0 X Nc) as (f & E1 & E2 & E3 & _). rewrite (PutO c tc0 X Nc) in Ec. injection Ec as <-.
        rewrite E3 in Fc. eapply (fs_prev _ _ _ _ S k t ob l c r tc0 fc); eauto; congruence.
  - assert (Tp : forall k v0 f ob kids, fvalue f = vimg nm' v0 -> F' (nm' k) = Some f -> F (nm' k) = None \/ nm' k = a ->
        v0 = NCont ob kids -> fend f = option_map nm' (last_error kids)).
    { intros k v0 f ob kids V E Hk ->. cbn [vimg] in V. assert (T : tidy F' (nm' k)) by (apply Tidy; auto; congruence).
      destruct (T f ob _ E V) as [En _]. now rewrite En, last_map. }
    intros k t ob kids f E V Hk Te Ff. apply Inv in E as [[-> ->]|[(Nk & Rk & E)|(Nk & Lk & E)]].
    + cbn [tvalue] in V. eapply (Tp i v f); eauto; congruence.
    + destruct (P1 k t E) as (_ & _ & _ & f2 & Ff2 & _ & Vf & _). replace f with f2 by congruence. eapply (Tp k (tvalue t) f2); eauto.
      left. now apply grow_sbelow, New.
    + destruct (OldG k t E Nk) as (f2 & E1 & E2 & E3 & _). rewrite E3 in Ff. replace f with f2 by congruence.
      rewrite (fs_end _ _ _ _ S k t ob kids f2 E V Hk Te E1). apply option_map_ext_in. intros x Hx. symmetry. apply Lo. apply last_in in Hx.
      destruct (fs_kids _ _ _ _ S k t ob _ x E V Hx) as (tx & Ex & _). eapply fs_bound; eauto.
  - intros k t f E Ts Ff. apply Inv in E as [[-> ->]|[(Nk & Rk & E)|(Nk & Lk & E)]]; [discriminate| |].
    + destruct (P1 k t E) as (_ & _ & Nt & _). congruence.
    + destruct (OldG k t E Nk) as (f2 & E1 & E2 & E3 & _). rewrite E3 in Ff. replace f with f2 by congruence. eapply (fs_stop _ _ _ _ S); eauto.
Qed.
End Grow.

(** ** Changing links *)
Lemma isinN_true x l : isinN x l = true <-> In x l.
Proof.
  unfold isinN. rewrite existsb_exists. split; [intros (y & H & E); apply N.eqb_eq in E; now subst|].
  intro H. exists x. split; auto. apply N.eqb_refl.
Qed.
Lemma isinN_false x l : isinN x l = false <-> ~ In x l.
Proof. rewrite <- isinN_true. destruct (isinN x l); split; congruence. Qed.
Lemma split_at_ok i l : forall a b, split_at i l = Some (a, b) -> l = a ++ i :: b.
Proof.
  induction l as [|x l IH]; cbn; intros a b H; [discriminate|]. destruct (N.eqb_spec x i) as [->|_]; [injection H as <- <-; reflexivity|].
  destruct (split_at i l) as [[a' b']|]; [|discriminate]. injection H as <- <-. cbn. f_equal. now apply IH.
Qed.
Lemma nilb_true {X} (l : list X) : nilb l = true <-> l = [].
Proof. destruct l; cbn; split; congruence. Qed.
Lemma is_some_false {X} (o : option X) : is_some o = false <-> o = None.
Proof. destruct o; cbn; split; congruence. Qed.
Lemma is_some_true {X} (o : option X) : is_some o = true <-> o <> None.
Proof. destruct o; cbn; split; congruence. Qed.
Lemma map_hd {X Y} (f : X -> Y) l : hd_error (map f l) = option_map f (hd_error l).
Proof. now destruct l. Qed.
Lemma NoDup_map_inv' {X Y} (f : X -> Y) l : NoDup (map f l) -> NoDup l.
Proof.
  induction l as [|x l IH]; cbn; intro H; [constructor|]. inversion H; subst. constructor; auto. intro K. apply H2. now apply in_map.
Qed.

Lemma fs_in nm n G F i l : fsim nm n G F -> G i <> None -> (forall c, In c l -> G c <> None) -> In (nm i) (map nm l) -> In i l.
Proof.
  intros S Hi Hl H. apply in_map_iff in H as (c & E & Hc). apply (fs_inj _ _ _ _ S) in E; auto. now subst.
Qed.
Lemma fs_nodup nm n G F i t ob kids : fsim nm n G F -> wfdom F -> G i = Some t -> tvalue t = NCont ob kids -> NoDup (map nm kids) /\ NoDup kids.
Proof.
  intros S D E V. destruct (fs_node _ _ _ _ S i t E) as (f & Ff & _ & Vf & _). rewrite V in Vf. cbn [vimg] in Vf.
  destruct (D _ _ Ff) as [D1 _]. destruct (D1 _ _ Vf) as [C _]. apply chain_NoDup in C. split; auto. eapply NoDup_map_inv'; eauto.
Qed.

(** [unlink] node by node. *)
Lemma unlink_view F a p f fp ob l r x f0 : wfdom F -> F a = Some f -> fpar f = Some p -> F p = Some fp ->
  fvalue fp = VCont ob (l ++ a :: r) -> ~ In p (l ++ a :: r) -> F x = Some f0 ->
  exists f1, unlink F a p f fp ob l r x = Some f1 /\ fkey f1 = fkey f0 /\
    fvalue f1 = (if addr_eqb x p then VCont ob (l ++ r) else fvalue f0) /\
    fpar f1 = (if addr_eqb x a then None else fpar f0) /\
    fprev f1 = (if addr_eqb x a then None else if is_opt (hd_error r) x then None else fprev f0) /\
    fend f1 = (if addr_eqb x p then match r with [] => None | _ => fend fp end else fend f0).
Proof.
  intros D Fa Pa Fp Vp Np Fx.
  assert (Nap : a <> p) by (intros ->; apply Np, in_app_iff; right; now left).
  destruct (addr_eqb_spec x a) as [->|Na].
  { exists (detach f). split; [now apply unlink_a|]. replace f0 with f by congruence. rewrite addr_eqb_neq by auto. auto 10. }
  destruct (addr_eqb_spec x p) as [->|Nx].
  { exists (shrunk fp ob l r). split; [eapply unlink_p; eauto|]. replace f0 with fp by congruence.
    replace (is_opt (hd_error r) p) with false; [auto 10|]. symmetry. apply is_opt_false. intro E. apply Np.
    apply in_app_iff. right. right. now apply hd_in. }
  destruct (is_opt (last_error l) x) eqn:E1.
  - apply is_opt_true in E1. exists (set_next (hd_error r) f0). split; [eapply unlink_pred; eauto|].
    destruct (ul_pred F a p fp ob l r D Fp Vp Np x E1) as (_ & _ & N & _).
    replace (is_opt (hd_error r) x) with false by (symmetry; now apply is_opt_false). auto 10.
  - apply is_opt_false in E1. destruct (is_opt (hd_error r) x) eqn:E2.
    + apply is_opt_true in E2. exists (set_prev None f0). split; [eapply unlink_succ; eauto|]. auto 10.
    + apply is_opt_false in E2. exists f0. split; [|auto 10]. rewrite unlink_other; auto. unfold touched. tauto.
Qed.

(** None of the tree operations touches what is known about the byte after a number. *)
Lemma unlink_stop F a p f fp ob l r x f1 : F a = Some f -> F p = Some fp -> unlink F a p f fp ob l r x = Some f1 ->
  exists f0, F x = Some f0 /\ fstop f1 = fstop f0.
Proof.
  intros Fa Fp. unfold unlink. destruct (addr_eqb_spec x a) as [->|]; [intros [= <-]; eauto|].
  destruct (addr_eqb_spec x p) as [->|]; [intros [= <-]; eauto|].
  destruct (is_opt (last_error l) x); [destruct (F x); cbn; [intros [= <-]; eauto|discriminate]|].
  destruct (is_opt (hd_error r) x); [destruct (F x); cbn; [intros [= <-]; eauto|discriminate]|]. eauto.
Qed.
Lemma append_stop F a c fa fc ob kids x f1 : F a = Some fa -> F c = Some fc -> append F a c fa fc ob kids x = Some f1 ->
  exists f0, F x = Some f0 /\ fstop f1 = fstop f0.
Proof.
  intros Fa Fc. unfold append. destruct (addr_eqb_spec x c) as [->|]; [intros [= <-]; eauto|].
  destruct (addr_eqb_spec x a) as [->|]; [intros [= <-]; eauto|].
  destruct (is_opt (last_error kids) x); [destruct (F x); cbn; [intros [= <-]; eauto|discriminate]|]. eauto.
Qed.
Lemma take_stop F a b fa fb fe x f1 : x <> a -> take F a b fa fb fe x = Some f1 ->
  exists f0, F x = Some f0 /\ fstop f1 = fstop f0.
Proof.
  intros N. unfold take. destruct (addr_eqb_spec x b) as [->|]; [discriminate|]. rewrite addr_eqb_neq by auto.
  destruct (isin x (kids_in (fvalue fb))); [destruct (F x); cbn; [intros [= <-]; eauto|discriminate]|]. eauto.
Qed.

Lemma unhook_dom G i G' k : unhook G i = Some G' -> (G' k <> None <-> G k <> None).
Proof.
  unfold unhook. destruct (G i) as [t|] eqn:Ei; [|discriminate]. destruct (tpar t) as [p|]; [|intros [= <-]; tauto].
  destruct (G p) as [tp|] eqn:Ep; [|discriminate]. destruct (tvalue tp) as [| | | |ob kids]; try discriminate.
  destruct (split_at i kids) as [[l r]|]; [|discriminate]. destruct (tprev t && negb (isinN p kids)); [|discriminate]. intros [= <-].
  destruct (N.eqb_spec k i) as [->|]; [split; congruence|]. destruct (N.eqb_spec k p) as [->|]; [split; congruence|].
  destruct r as [|y r]; [tauto|]. destruct (N.eqb_spec k y) as [->|]; [|tauto]. destruct (G y); cbn; split; congruence.
Qed.

Theorem unhook_sim nm n G F i G' : fsim nm n G F -> wfdom F -> unhook G i = Some G' ->
  exists F', removed F (nm i) F' /\ fsim nm n G' F'.
Proof.
  intros S D U. pose proof (fun k => unhook_dom G i G' k U) as Dm. unfold unhook in U.
  destruct (G i) as [t|] eqn:Ei; [|discriminate]. destruct (fs_node _ _ _ _ S i t Ei) as (f & Fi & Ki & Vi & Pi).
  destruct (tpar t) as [p|] eqn:Ep; [|injection U as <-; exists F; split; auto; now apply rm_free with f].
  destruct (G p) as [tp|] eqn:Gp; [|discriminate]. destruct (tvalue tp) as [| | | |ob kids] eqn:Vp; try discriminate.
  destruct (split_at i kids) as [[l r]|] eqn:Sp; [|discriminate]. apply split_at_ok in Sp. subst kids.
  destruct (tprev t && negb (isinN p (l ++ i :: r))) eqn:Ok; [|discriminate]. apply andb_true_iff in Ok as [Pt Np].
  apply negb_true_iff, isinN_false in Np. injection U as U.
  destruct (fs_node _ _ _ _ S p tp Gp) as (fp & Fp & Kp & Vfp & Pp). rewrite Vp in Vfp. cbn [vimg] in Vfp. rewrite map_app in Vfp. cbn [map] in Vfp.
  cbn [option_map] in Pi.
  assert (Live : forall c, In c (l ++ i :: r) -> G c <> None).
  { intros c Hc. destruct (fs_kids _ _ _ _ S p tp ob _ c Gp Vp Hc) as (tc & E & _). congruence. }
  assert (Np' : ~ In (nm p) (map nm l ++ nm i :: map nm r)).
  { intro K. apply Np. eapply (fs_in nm n G F p); eauto; [congruence|]. rewrite map_app. exact K. }
  assert (Prev : fprev f = last_error (map nm l)).
  { rewrite last_map. eapply (fs_prev _ _ _ _ S p tp ob l i r t f); eauto. }
  assert (Nip : i <> p) by (intros ->; apply Np, in_app_iff; right; now left).
  destruct (fs_nodup nm n G F p tp ob _ S D Gp Vp) as [_ ND].
  set (F' := unlink F (nm i) (nm p) f fp ob (map nm l) (map nm r)).
  assert (View : forall k t0, G k = Some t0 -> exists f0 f1, F (nm k) = Some f0 /\ img nm t0 f0 /\ F' (nm k) = Some f1 /\ fkey f1 = fkey f0 /\
    fvalue f1 = (if k =? p then VCont ob (map nm l ++ map nm r) else fvalue f0) /\
    fpar f1 = (if k =? i then None else fpar f0) /\
    fprev f1 = (if k =? i then None else if match r with [] => false | y :: _ => k =? y end then None else fprev f0) /\
    fend f1 = (if k =? p then match r with [] => None | _ => fend fp end else fend f0)).
  { intros k t0 Ek. destruct (fs_node _ _ _ _ S k t0 Ek) as (f0 & F0 & Im). exists f0.
    destruct (unlink_view F (nm i) (nm p) f fp ob (map nm l) (map nm r) (nm k) f0) as (f1 & E & A1 & A2 & A3 & A4 & A5); auto.
    exists f1. split; auto. split; auto. split; auto. split; auto.
    assert (Q : forall q, G q <> None -> addr_eqb (nm k) (nm q) = (k =? q)).
    { intros q Hq. destruct (N.eqb_spec k q) as [->|N]; [apply addr_eqb_refl|]. apply addr_eqb_neq. intro K. apply N.
      apply (fs_inj _ _ _ _ S) in K; auto. congruence. }
    rewrite (Q p) in A2, A5 by congruence. rewrite (Q i) in A3, A4 by congruence.
    split; auto. split; auto. split; [|destruct r; auto].
    rewrite A4. destruct (k =? i); auto. destruct r as [|y r]; auto. cbn [map hd_error is_opt].
    rewrite Q; auto. apply Live, in_app_iff. right. right. now left. }
  (* the forest after the step *)
  assert (Gi' : G' i = Some (mkT (tkey t) (tvalue t) None true (tend t) (tstop t))) by (rewrite <- U; now rewrite N.eqb_refl).
  assert (Gp' : G' p = Some (mkT (tkey tp) (NCont ob (l ++ r)) (tpar tp) (tprev tp) (match r with [] => nilb l | _ => tend tp end) (tstop tp))).
  { rewrite <- U. destruct (N.eqb_spec p i); [congruence|]. now rewrite N.eqb_refl. }
  assert (Inv : forall k t', G' k = Some t' -> k <> i -> k <> p -> exists t0, G k = Some t0 /\ tkey t' = tkey t0 /\ tvalue t' = tvalue t0 /\
     tpar t' = tpar t0 /\ tend t' = tend t0 /\ tprev t' = (if match r with [] => false | y :: _ => k =? y end then nilb l else tprev t0)).
  { intros k t' E N1 N2. rewrite <- U in E. destruct (N.eqb_spec k i); [congruence|]. destruct (N.eqb_spec k p); [congruence|].
    destruct r as [|y r]; [exists t'; auto 10|]. destruct (N.eqb_spec k y) as [->|]; [|exists t'; auto 10].
    destruct (G y) as [t0|]; [|discriminate]. cbn in E. injection E as <-. exists t0. auto 10. }
  assert (Fwd : forall c tc, G c = Some tc -> c <> i -> exists tc', G' c = Some tc' /\ tpar tc' = tpar tc).
  { intros c tc E N1. destruct (N.eq_dec c p) as [->|N2]; [eexists; split; [exact Gp'|]; cbn; congruence|].
    destruct (G' c) as [t'|] eqn:E'.
    - destruct (Inv c t' E' N1 N2) as (t0 & E0 & _ & _ & K & _). exists t'. split; auto. congruence.
    - exfalso. apply (proj2 (Dm c)); congruence. }
  exists F'. split; [unfold F'; eapply rm_from; eauto|]. constructor.
  - intros k t' E. destruct (N.eq_dec k i) as [->|Nki].
    { rewrite Gi' in E. injection E as <-. destruct (View i t Ei) as (f0 & f1 & _ & (A & B & C) & E1 & A1 & A2 & A3 & _).
      exists f1. split; auto. destruct (N.eqb_spec i p); [congruence|]. rewrite N.eqb_refl in A3.
      split; [cbn; congruence|]. split; [cbn; congruence|]. exact A3. }
    destruct (N.eq_dec k p) as [->|Nkp].
    { rewrite Gp' in E. injection E as <-. destruct (View p tp Gp) as (f0 & f1 & _ & (A & B & C) & E1 & A1 & A2 & A3 & _).
      exists f1. split; auto. rewrite N.eqb_refl in A2. destruct (N.eqb_spec p i); [congruence|].
      split; [cbn; congruence|]. split; [cbn; rewrite map_app; congruence|cbn; congruence]. }
    destruct (Inv k t' E Nki Nkp) as (t0 & E0 & B1 & B2 & B3 & B4 & B5).
    destruct (View k t0 E0) as (f0 & f1 & _ & (A & B & C) & E1 & A1 & A2 & A3 & _). exists f1. split; auto.
    destruct (N.eqb_spec k p); [congruence|]. destruct (N.eqb_spec k i); [congruence|].
    split; [congruence|]. split; congruence.
  - intros k t' E. split.
    + assert (G k <> None) by (apply Dm; congruence). destruct (G k) eqn:X; [|congruence]. eapply fs_bound; eauto.
    + intros q Hq. destruct (N.eq_dec k i) as [->|Nki]; [rewrite Gi' in E; injection E as <-; discriminate|].
      destruct (N.eq_dec k p) as [->|Nkp]; [rewrite Gp' in E; injection E as <-; cbn in Hq; eapply fs_pbound; eauto|].
      destruct (Inv k t' E Nki Nkp) as (t0 & E0 & B1 & B2 & B3 & _). eapply (fs_pbound nm n G F k t0); eauto. congruence.
  - intros x y Hx Hy. apply (fs_inj _ _ _ _ S); now apply Dm.
  - intros k t' ob' kids c E V Hc. destruct (N.eq_dec k i) as [->|Nki].
    { rewrite Gi' in E. injection E as <-. cbn [tvalue] in V. destruct (fs_kids _ _ _ _ S i t ob' kids c Ei V Hc) as (tc & X & Y).
      assert (c <> i) by congruence. destruct (Fwd c tc X) as (tc' & X' & Y'); auto. exists tc'. split; auto. congruence. }
    destruct (N.eq_dec k p) as [->|Nkp].
    { rewrite Gp' in E. injection E as <-. cbn [tvalue] in V. injection V as <- <-.
      assert (Hc' : In c (l ++ i :: r)) by (apply in_app_iff in Hc; apply in_app_iff; cbn; tauto).
      destruct (fs_kids _ _ _ _ S p tp ob _ c Gp Vp Hc') as (tc & X & Y).
      assert (Nc : c <> i) by (intros ->; apply NoDup_remove_2 in ND; contradiction).
      destruct (Fwd c tc X Nc) as (tc' & X' & Y'). exists tc'. split; auto. congruence. }
    destruct (Inv k t' E Nki Nkp) as (t0 & E0 & B1 & B2 & B3 & B4 & B5). rewrite B2 in V.
    destruct (fs_kids _ _ _ _ S k t0 ob' kids c E0 V Hc) as (tc & X & Y).
    assert (Nc : c <> i) by congruence. destruct (Fwd c tc X Nc) as (tc' & X' & Y'). exists tc'. split; auto. congruence.
  - (* predecessors *)
    assert (Other : forall q tq ob' l' c r' tc fc, G q = Some tq -> tvalue tq = NCont ob' (l' ++ c :: r') -> q <> p ->
      G' c = Some tc -> tprev tc = true -> F' (nm c) = Some fc -> fprev fc = option_map nm (last_error l')).
    { intros q tq ob' l' c r' tc fc Eq Vq Nq Ec Pc Fc.
      assert (Hc : In c (l' ++ c :: r')) by (apply in_app_iff; right; now left).
      destruct (fs_kids _ _ _ _ S q tq ob' _ c Eq Vq Hc) as (tc0 & X & Y).
      assert (Nci : c <> i) by congruence.
      destruct (View c tc0 X) as (f0 & f1 & E0 & _ & E1 & _ & _ & _ & A4 & _). replace fc with f1 by congruence.
      assert (Nr : (match r with [] => false | y :: _ => c =? y end) = false).
      { destruct r as [|y r]; auto. destruct (N.eqb_spec c y) as [->|]; auto.
        destruct (fs_kids _ _ _ _ S p tp ob _ y Gp Vp) as (ty & Ey & Py); [apply in_app_iff; right; right; now left|]. congruence. }
      rewrite Nr in A4. destruct (N.eqb_spec c i); [congruence|]. rewrite A4.
      eapply (fs_prev _ _ _ _ S q tq ob' l' c r' tc0 f0); eauto.
      destruct (N.eq_dec c p) as [->|Ncp]; [rewrite Gp' in Ec; injection Ec as <-; cbn in Pc; congruence|].
      destruct (Inv c tc Ec Nci Ncp) as (t0 & Z0 & _ & _ & _ & _ & B5). rewrite Nr in B5. congruence. }
    intros k t' ob' l' c r' tc fc E V Ec Pc Fc. destruct (N.eq_dec k i) as [->|Nki].
    { rewrite Gi' in E. injection E as <-. cbn [tvalue] in V. eapply (Other i t); eauto. }
    destruct (N.eq_dec k p) as [->|Nkp].
    2:{ destruct (Inv k t' E Nki Nkp) as (t0 & E0 & B1 & B2 & _). rewrite B2 in V. eapply (Other k t0); eauto. }
    rewrite Gp' in E. injection E as <-. cbn [tvalue] in V. injection V as <- V.
    assert (Hc : In c (l ++ i :: r)) by (assert (K : In c (l ++ r)) by (rewrite V; apply in_app_iff; right; now left); apply in_app_iff in K; apply in_app_iff; cbn; tauto).
    destruct (fs_kids _ _ _ _ S p tp ob _ c Gp Vp Hc) as (tc0 & X & Y).
    assert (Nci : c <> i).
    { intros ->. apply NoDup_remove_2 in ND. apply ND. rewrite V. apply in_app_iff. right. now left. }
    assert (Ncp : c <> p) by (intros ->; contradiction).
    destruct (Inv c tc Ec Nci Ncp) as (t0 & Z0 & _ & _ & _ & _ & B5). replace t0 with tc0 in * by congruence. clear t0 Z0.
    destruct (View c tc0 X) as (f0 & f1 & E0 & _ & E1 & _ & _ & _ & A4 & _). replace fc with f1 by congruence.
    destruct (N.eqb_spec c i); [congruence|]. rewrite A4. rewrite Pc in B5. clear Other View Inv Fwd Dm U.
    assert (Cases : (exists r'', l = l' ++ c :: r'') \/ (exists r1, l' = l ++ r1 /\ r = r1 ++ c :: r')).
    { clear - V. revert l V. induction l' as [|x l' IH]; intros [|y l] V; cbn in V.
      - right. exists []. auto.
      - injection V as <- V. left. exists l. reflexivity.
      - right. exists (x :: l'). auto.
      - injection V as <- V. destruct (IH l V) as [(r'' & ->)|(r1 & -> & ->)]; [left; exists r''; reflexivity|right; exists r1; auto]. }
    destruct Cases as [(r'' & ->)|(r1 & -> & ->)].
    + assert (Nr : (match r with [] => false | y :: _ => c =? y end) = false).
      { destruct r as [|y r]; auto. destruct (N.eqb_spec c y) as [->|]; auto. exfalso. rewrite <- app_assoc in ND. cbn in ND.
        apply nodup_app in ND. inversion ND as [|? ? Q _]. apply Q, in_app_iff. right. right. now left. }
      rewrite Nr in *. eapply (fs_prev _ _ _ _ S p tp ob l' c (r'' ++ i :: r) tc0 f0); eauto. rewrite Vp. now rewrite <- app_assoc.
    + destruct r1 as [|y r1]; cbn [app] in *.
      * rewrite N.eqb_refl in *. symmetry in B5. apply nilb_true in B5. subst l. now rewrite app_nil_r.
      * assert (Ny : (c =? y) = false).
        { apply N.eqb_neq. intros ->. apply nodup_app in ND. inversion ND as [|? ? _ ND']. inversion ND' as [|? ? Q _]. apply Q, in_app_iff. right. now left. }
        rewrite Ny in *. rewrite (fs_prev _ _ _ _ S p tp ob (l ++ i :: y :: r1) c r' tc0 f0); auto.
        -- rewrite !last_app, last_cons. now destruct (last_error r1).
        -- rewrite Vp. rewrite <- app_assoc. reflexivity.
  - intros k t' ob' kids fk E V Hk Te Fk. destruct (N.eq_dec k i) as [->|Nki].
    { rewrite Gi' in E. injection E as <-. cbn [tvalue tend] in V, Te. destruct (View i t Ei) as (f0 & f1 & E0 & _ & E1 & _ & _ & _ & _ & A5).
      destruct (N.eqb_spec i p); [congruence|]. replace fk with f1 by congruence. rewrite A5. eapply (fs_end _ _ _ _ S i t ob' kids f0); eauto. }
    destruct (N.eq_dec k p) as [->|Nkp].
    2:{ destruct (Inv k t' E Nki Nkp) as (t0 & E0 & B1 & B2 & B3 & B4 & B5). destruct (View k t0 E0) as (f0 & f1 & E0' & _ & E1 & _ & _ & _ & _ & A5).
        destruct (N.eqb_spec k p); [congruence|]. replace fk with f1 by congruence. rewrite A5. eapply (fs_end _ _ _ _ S k t0 ob' kids f0); eauto; congruence. }
    rewrite Gp' in E. injection E as <-. cbn [tvalue tend] in V, Te. injection V as <- <-.
    destruct (View p tp Gp) as (f0 & f1 & E0 & _ & E1 & _ & _ & _ & _ & A5). rewrite N.eqb_refl in A5. replace fk with f1 by congruence. rewrite A5.
    destruct r as [|y r]; [apply nilb_true in Te; subst l; now elim Hk|].
    rewrite (fs_end _ _ _ _ S p tp ob (l ++ i :: y :: r) fp Gp Vp); auto; [|now destruct l].
    rewrite !last_app, last_cons. now destruct (last_error r).
  - intros k t' f1 E Ts F1. destruct (unlink_stop _ _ _ _ _ _ _ _ _ _ Fi Fp F1) as (f0 & F0 & ->).
    assert (exists t0, G k = Some t0 /\ tstop t' = tstop t0) as (t0 & E0 & St).
    { rewrite <- U in E. destruct (N.eqb_spec k i) as [->|]; [injection E as <-; eauto|].
      destruct (N.eqb_spec k p) as [->|]; [injection E as <-; eauto|].
      destruct r as [|y r]; [eauto|]. destruct (N.eqb_spec k y) as [->|]; [|eauto].
      destruct (G y) as [t0|]; [|discriminate]. injection E as <-. eauto. }
    eapply (fs_stop _ _ _ _ S k t0); eauto; congruence.
Qed.

Lemma fs_neq nm n G F i j : fsim nm n G F -> G i <> None -> G j <> None -> i <> j -> nm i <> nm j.
Proof. intros S Hi Hj N E. apply N. eapply fs_inj; eauto. Qed.
Lemma split_snoc {X} (kids : list X) x l c r : kids ++ [x] = l ++ c :: r ->
  (exists r', kids = l ++ c :: r') \/ (kids = l /\ c = x).
Proof.
  revert l. induction kids as [|y kids IH]; intros [|z l] E; cbn in E; injection E as E1 E2.
  - right. auto.
  - now destruct l.
  - left. subst. eexists. reflexivity.
  - subst. destruct (IH l E2) as [(r' & ->)|[-> ->]]; [left; exists r'; reflexivity|right; auto].
Qed.

Theorem rekey_sim nm n G F i k F' f f' : fsim nm n G F -> F (nm i) = Some f -> F' (nm i) = Some f' ->
  (forall x g, F x = Some g -> x <> nm i -> F' x = Some g) ->
  fkey f' = k -> fvalue f' = fvalue f -> fpar f' = fpar f -> fprev f' = fprev f -> fend f' = fend f -> fstop f' = fstop f -> G i <> None ->
  fsim nm n (rekeyN G i k) F'.
Proof.
  intros S Fi Fi' Old A1 A2 A3 A4 A5 A6 Li.
  assert (Inv : forall c t, rekeyN G i k c = Some t -> exists t0, G c = Some t0 /\ tvalue t = tvalue t0 /\ tpar t = tpar t0 /\
    tprev t = tprev t0 /\ tend t = tend t0 /\ (tkey t = if c =? i then k else tkey t0)).
  { intros c t E. unfold rekeyN in E. destruct (c =? i); [|exists t; auto 10].
    destruct (G c) as [t0|]; [|discriminate]. injection E as <-. exists t0. auto 10. }
  assert (Dm : forall c, rekeyN G i k c <> None <-> G c <> None).
  { intro c. unfold rekeyN. destruct (c =? i); [|tauto]. destruct (G c); cbn; split; congruence. }
  assert (View : forall c f0, G c <> None -> F (nm c) = Some f0 -> exists f1, F' (nm c) = Some f1 /\ fvalue f1 = fvalue f0 /\ fpar f1 = fpar f0 /\
    fprev f1 = fprev f0 /\ fend f1 = fend f0 /\ fkey f1 = if c =? i then k else fkey f0).
  { intros c f0 Lc Fc. destruct (N.eqb_spec c i) as [->|N]; [exists f'; replace f0 with f by congruence; auto 10|].
    exists f0. split; [|auto 10]. apply Old; auto. eapply fs_neq; eauto. }
  constructor.
  - intros c t E. destruct (Inv c t E) as (t0 & E0 & B1 & B2 & B3 & B4 & B5). destruct (fs_node _ _ _ _ S c t0 E0) as (f0 & F0 & C1 & C2 & C3).
    destruct (View c f0) as (f1 & F1 & D1 & D2 & _ & _ & D5); auto; [congruence|]. exists f1. split; auto.
    split; [|split; congruence]. rewrite D5, B5. destruct (c =? i); congruence.
  - intros c t E. destruct (Inv c t E) as (t0 & E0 & _ & B2 & _). rewrite B2. apply (fs_lt _ _ _ _ S c t0 E0).
  - intros x y Hx Hy. apply (fs_inj _ _ _ _ S); now apply Dm.
  - intros q t ob kids c E V Hc. destruct (Inv q t E) as (t0 & E0 & B1 & _). rewrite B1 in V.
    destruct (fs_kids _ _ _ _ S q t0 ob kids c E0 V Hc) as (tc & X & Y).
    destruct (rekeyN G i k c) as [tc'|] eqn:Z; [|exfalso; apply (proj2 (Dm c)); congruence].
    destruct (Inv c tc' Z) as (t2 & E2 & _ & B2 & _). exists tc'. split; auto. congruence.
  - intros q t ob l c r tc fc E V Ec Pc Fc. destruct (Inv q t E) as (t0 & E0 & B1 & _). rewrite B1 in V.
    destruct (Inv c tc Ec) as (tc0 & X & _ & _ & B3 & _). destruct (fs_node _ _ _ _ S c tc0 X) as (f0 & F0 & _).
    destruct (View c f0) as (f1 & F1 & _ & _ & D3 & _); auto; [congruence|]. replace fc with f1 by congruence. rewrite D3.
    eapply (fs_prev _ _ _ _ S q t0); eauto; congruence.
  - intros q t ob kids fq E V Hk Te Fq. destruct (Inv q t E) as (t0 & E0 & B1 & _ & _ & B4 & _). rewrite B1 in V.
    destruct (fs_node _ _ _ _ S q t0 E0) as (f0 & F0 & _). destruct (View q f0) as (f1 & F1 & _ & _ & _ & D4 & _); auto; [congruence|].
    replace fq with f1 by congruence. rewrite D4. eapply (fs_end _ _ _ _ S q t0); eauto; congruence.
  - intros c t f1 E Ts F1. assert (exists t0, G c = Some t0 /\ tstop t = tstop t0) as (t0 & E0 & St).
    { unfold rekeyN in E. destruct (c =? i); [|eauto]. destruct (G c) as [t0|]; [|discriminate]. injection E as <-. eauto. }
    destruct (fs_node _ _ _ _ S c t0 E0) as (f0 & F0 & _). rewrite St in Ts. pose proof (fs_stop _ _ _ _ S c t0 f0 E0 Ts F0) as K.
    destruct (N.eq_dec c i) as [->|N]; [congruence|]. assert (F' (nm c) = Some f0); [|congruence]. apply Old; auto. eapply fs_neq; eauto; congruence.
Qed.

Lemma hang_parts G ob a c G' : hang G ob a c = Some G' -> exists ta tc kids, G a = Some ta /\ G c = Some tc /\ tvalue ta = NCont ob kids /\
  tpar tc = None /\ a <> c /\ ~ In a kids /\ (kids <> [] -> tend ta = true) /\ lenN kids + 1 < two32 /\
  G' = (fun x => if x =? c then Some (mkT (tkey tc) (tvalue tc) (Some a) true (tend tc) (tstop tc))
                 else if x =? a then Some (mkT (tkey ta) (NCont ob (kids ++ [c])) (tpar ta) (tprev ta) true (tstop ta)) else G x).
Proof.
  unfold hang. destruct (G a) as [ta|]; [|discriminate]. destruct (G c) as [tc|]; [|discriminate].
  destruct (tvalue ta) as [| | | |ob' kids] eqn:V; try discriminate.
  match goal with |- (if ?b then _ else _) = _ -> _ => destruct b eqn:Ok; [|discriminate] end. intros [= <-].
  apply andb_true_iff in Ok as [Ok B6]. apply andb_true_iff in Ok as [Ok B5]. apply andb_true_iff in Ok as [Ok B4].
  apply andb_true_iff in Ok as [Ok B3]. apply andb_true_iff in Ok as [B1 B2]. apply Bool.eqb_prop in B1. subst ob'.
  apply negb_true_iff, is_some_false in B2. apply negb_true_iff, N.eqb_neq in B3. apply negb_true_iff, isinN_false in B4.
  apply N.ltb_lt in B6. exists ta, tc, kids. split; auto. split; auto. split; auto. split; auto. split; auto. split; auto.
  split; auto. intro H. apply orb_true_iff in B5 as [B5|B5]; auto. now apply nilb_true in B5.
Qed.

Theorem hang_sim nm n G F ob a c G' : fsim nm n G F -> wfdom F -> hang G ob a c = Some G' ->
  (forall tc, G c = Some tc -> if ob then tkey tc <> None else tkey tc = None) ->
  exists fa fc kids, appendable F ob (nm a) (nm c) fa fc kids /\ fsim nm n G' (append F (nm a) (nm c) fa fc ob kids).
Proof.
  intros S D H Hkey. destruct (hang_parts _ _ _ _ _ H) as (ta & tc & kids & Ga & Gc & V & Pc & Nac & Nak & En & Ln & ->). clear H.
  specialize (Hkey tc Gc).
  destruct (fs_node _ _ _ _ S a ta Ga) as (fa & Fa & Ka & Va & Pa). rewrite V in Va. cbn [vimg] in Va.
  destruct (fs_node _ _ _ _ S c tc Gc) as (fc & Fc & Kc & Vc & Pfc). rewrite Pc in Pfc. cbn [option_map] in Pfc.
  assert (Live : forall x, In x kids -> G x <> None).
  { intros x Hx. destruct (fs_kids _ _ _ _ S a ta ob _ x Ga V Hx) as (tx & E & _). congruence. }
  assert (Nac' : nm a <> nm c) by (eapply fs_neq; eauto; congruence).
  assert (Nak' : ~ In (nm a) (map nm kids)) by (intro K; apply Nak; eapply (fs_in nm n G F a); eauto; congruence).
  assert (En' : map nm kids <> [] -> fend fa = last_error (map nm kids)).
  { intro K. rewrite last_map. assert (kids <> []) by (intros ->; apply K; reflexivity). eapply (fs_end _ _ _ _ S a ta ob kids fa); eauto. }
  assert (Ab : appendable F ob (nm a) (nm c) fa fc (map nm kids)).
  { constructor; auto; [destruct ob; congruence|]. unfold lenN in *. rewrite map_length. exact Ln. }
  exists fa, fc, (map nm kids). split; auto.
  set (F' := append F (nm a) (nm c) fa fc ob (map nm kids)).
  assert (Fc' : F' (nm c) = Some (attached (nm a) fc (map nm kids))) by (unfold F'; apply append_c).
  assert (Fa' : F' (nm a) = Some (grown (nm c) fa ob (map nm kids))) by (unfold F'; now apply append_a).
  assert (View : forall k t f0, G k = Some t -> F (nm k) = Some f0 -> k <> a -> k <> c -> exists f1, F' (nm k) = Some f1 /\ fkey f1 = fkey f0 /\
    fvalue f1 = fvalue f0 /\ fpar f1 = fpar f0 /\ fprev f1 = fprev f0 /\ fend f1 = fend f0).
  { intros k t f0 Ek F0 N1 N2. assert (M1 : nm k <> nm a) by (eapply fs_neq; eauto; congruence). assert (M2 : nm k <> nm c) by (eapply fs_neq; eauto; congruence).
    destruct (is_opt (last_error (map nm kids)) (nm k)) eqn:E.
    - apply is_opt_true in E. exists (set_next (Some (nm c)) f0). split; [|auto 10]. unfold F'. eapply append_pred; eauto.
    - apply is_opt_false in E. exists f0. split; [|auto 10]. unfold F'. rewrite append_other; auto. unfold atouched. tauto. }
  match goal with |- fsim _ _ ?g _ => set (G' := g) end.
  assert (Gc' : G' c = Some (mkT (tkey tc) (tvalue tc) (Some a) true (tend tc) (tstop tc))) by (unfold G'; now rewrite N.eqb_refl).
  assert (Ga' : G' a = Some (mkT (tkey ta) (NCont ob (kids ++ [c])) (tpar ta) (tprev ta) true (tstop ta))).
  { unfold G'. destruct (N.eqb_spec a c); [congruence|]. now rewrite N.eqb_refl. }
  assert (Go' : forall k, k <> a -> k <> c -> G' k = G k).
  { intros k N1 N2. unfold G'. destruct (N.eqb_spec k c); [congruence|]. now destruct (N.eqb_spec k a). }
  assert (Dm : forall k, G' k <> None <-> G k <> None).
  { intro k. destruct (N.eq_dec k c) as [->|N2]; [rewrite Gc'; split; congruence|].
    destruct (N.eq_dec k a) as [->|N1]; [rewrite Ga'; split; congruence|]. now rewrite Go'. }
  assert (Nkc : forall q tq ob' kq x, G q = Some tq -> tvalue tq = NCont ob' kq -> In x kq -> x <> c).
  { intros q tq ob' kq x Eq Vq Hx ->. destruct (fs_kids _ _ _ _ S q tq ob' kq c Eq Vq Hx) as (t2 & E2 & P2). congruence. }
  constructor.
  - intros k t E. destruct (N.eq_dec k c) as [->|N2].
    { rewrite Gc' in E. injection E as <-. eexists. split; [exact Fc'|]. split; [cbn; congruence|]. split; [cbn; congruence|reflexivity]. }
    destruct (N.eq_dec k a) as [->|N1].
    { rewrite Ga' in E. injection E as <-. eexists. split; [exact Fa'|]. split; [cbn; congruence|].
      split; [cbn; now rewrite map_app|cbn; congruence]. }
    rewrite Go' in E by auto. destruct (fs_node _ _ _ _ S k t E) as (f0 & F0 & A & B & C). destruct (View k t f0 E F0 N1 N2) as (f1 & F1 & B1 & B2 & B3 & _).
    exists f1. split; auto. split; [congruence|]. split; congruence.
  - intros k t E. split.
    + assert (G k <> None) by (apply Dm; congruence). destruct (G k) eqn:X; [|congruence]. eapply fs_bound; eauto.
    + intros q Hq. destruct (N.eq_dec k c) as [->|N2].
      { rewrite Gc' in E. injection E as <-. cbn in Hq. injection Hq as <-. eapply fs_bound; eauto. }
      destruct (N.eq_dec k a) as [->|N1]; [rewrite Ga' in E; injection E as <-; cbn in Hq; eapply (fs_pbound nm n G F a ta); eauto|].
      rewrite Go' in E by auto. eapply fs_pbound; eauto.
  - intros x y Hx Hy. apply (fs_inj _ _ _ _ S); now apply Dm.
  - assert (Fwd : forall x tx, G x = Some tx -> x <> c -> exists tx', G' x = Some tx' /\ tpar tx' = tpar tx).
    { intros x tx E N2. destruct (N.eq_dec x a) as [->|N1]; [eexists; split; [exact Ga'|]; cbn; congruence|]. rewrite Go' by auto. eauto. }
    intros k t ob' kk x E Vk Hx. 
    assert (Old : forall tk, G k = Some tk -> tvalue tk = NCont ob' kk -> exists tc0, G' x = Some tc0 /\ tpar tc0 = Some k).
    { intros tk Ek Vk'. destruct (fs_kids _ _ _ _ S k tk ob' kk x Ek Vk' Hx) as (tx & X & Y).
      destruct (Fwd x tx X) as (tx' & X' & Y'); [exact (Nkc k tk ob' kk x Ek Vk' Hx)|]. exists tx'. split; auto. congruence. }
    destruct (N.eq_dec k c) as [->|N2].
    { rewrite Gc' in E. injection E as <-. cbn in Vk. eauto. }
    destruct (N.eq_dec k a) as [->|N1]; [|rewrite Go' in E by auto; eauto].
    rewrite Ga' in E. injection E as <-. cbn in Vk. injection Vk as <- <-. apply in_app_iff in Hx as [Hx|[<-|[]]].
    + destruct (fs_kids _ _ _ _ S a ta ob kids x Ga V Hx) as (tx & X & Y).
      destruct (Fwd x tx X) as (tx' & X' & Y'); [exact (Nkc a ta ob kids x Ga V Hx)|]. exists tx'. split; auto. congruence.
    + eexists. split; [exact Gc'|]. reflexivity.
  - assert (Old : forall q tq ob' l x r tx fx, G q = Some tq -> tvalue tq = NCont ob' (l ++ x :: r) -> G' x = Some tx -> tprev tx = true ->
      F' (nm x) = Some fx -> fprev fx = option_map nm (last_error l)).
    { intros q tq ob' l x r tx fx Eq Vq Ex Px Fx.
      assert (Hx : In x (l ++ x :: r)) by (apply in_app_iff; right; now left).
      assert (Nxc : x <> c) by exact (Nkc q tq ob' _ x Eq Vq Hx).
      destruct (fs_kids _ _ _ _ S q tq ob' _ x Eq Vq Hx) as (tx0 & X & Y).
      destruct (N.eq_dec x a) as [->|N1].
      - rewrite Ga' in Ex. injection Ex as <-. cbn in Px. rewrite Fa' in Fx. injection Fx as <-. cbn.
        eapply (fs_prev _ _ _ _ S q tq ob' l a r ta fa); eauto.
      - rewrite Go' in Ex by auto. destruct (fs_node _ _ _ _ S x tx Ex) as (f0 & F0 & _).
        destruct (View x tx f0 Ex F0 N1 Nxc) as (f1 & F1 & _ & _ & _ & B4 & _). replace fx with f1 by congruence. rewrite B4.
        eapply (fs_prev _ _ _ _ S q tq ob' l x r tx f0); eauto. }
    intros k t ob' l x r tx fx E Vk Ex Px Fx. destruct (N.eq_dec k c) as [->|N2].
    { rewrite Gc' in E. injection E as <-. cbn in Vk. eauto. }
    destruct (N.eq_dec k a) as [->|N1]; [|rewrite Go' in E by auto; eauto].
    rewrite Ga' in E. injection E as <-. cbn in Vk. injection Vk as <- Vk.
    destruct (split_snoc _ _ _ _ _ Vk) as [(r' & ->)|[<- ->]]; [eauto|].
    rewrite Fc' in Fx. injection Fx as <-. cbn. apply last_map.
  - intros k t ob' kk fk E Vk Hk Te Fk. destruct (N.eq_dec k c) as [->|N2].
    { rewrite Gc' in E. injection E as <-. cbn in Vk, Te. rewrite Fc' in Fk. injection Fk as <-. cbn. eapply (fs_end _ _ _ _ S c tc); eauto. }
    destruct (N.eq_dec k a) as [->|N1].
    { rewrite Ga' in E. injection E as <-. cbn in Vk. injection Vk as <- <-. rewrite Fa' in Fk. injection Fk as <-. cbn.
      now rewrite last_error_snoc. }
    rewrite Go' in E by auto. destruct (fs_node _ _ _ _ S k t E) as (f0 & F0 & _).
    destruct (View k t f0 E F0 N1 N2) as (f1 & F1 & _ & _ & _ & _ & B5). replace fk with f1 by congruence. rewrite B5.
    eapply (fs_end _ _ _ _ S k t); eauto.
  - intros k t f1 E Ts F1. destruct (append_stop _ _ _ _ _ _ _ _ _ Fa Fc F1) as (f0 & F0 & ->).
    assert (exists t0, G k = Some t0 /\ tstop t = tstop t0) as (t0 & E0 & St).
    { unfold G' in E. destruct (N.eqb_spec k c) as [->|]; [injection E as <-; eauto|].
      destruct (N.eqb_spec k a) as [->|]; [injection E as <-; eauto|]. eauto. }
    eapply (fs_stop _ _ _ _ S k t0); eauto; congruence.
Qed.

Lemma hand_parts G a b known G' : hand G a b known = Some G' -> exists ta tb, G a = Some ta /\ G b = Some tb /\ tpar tb = None /\
  a <> b /\ ~ In a (nkids (tvalue tb)) /\
  G' = (fun x => if x =? b then None
          else if x =? a then
            Some (mkT (tkey ta) (tvalue tb) (tpar ta) (tprev ta) ((known && tend tb) || nilb (nkids (tvalue tb))) (tstop tb))
          else if isinN x (nkids (tvalue tb))
          then option_map (fun tx => mkT (tkey tx) (tvalue tx) (Some a) (tprev tx) (tend tx) (tstop tx)) (G x)
          else G x).
Proof.
  unfold hand. destruct (G a) as [ta|]; [|discriminate]. destruct (G b) as [tb|]; [|discriminate].
  match goal with |- (if ?b then _ else _) = _ -> _ => destruct b eqn:Ok; [|discriminate] end. intros [= <-].
  apply andb_true_iff in Ok as [Ok B3]. apply andb_true_iff in Ok as [B1 B2].
  apply negb_true_iff, is_some_false in B1. apply negb_true_iff, N.eqb_neq in B2. apply negb_true_iff, isinN_false in B3.
  exists ta, tb. auto 10.
Qed.
Lemma kids_img nm v : kids_in (vimg nm v) = map nm (nkids v).
Proof. now destruct v. Qed.

Theorem hand_sim nm n G F a b known G' : fsim nm n G F -> wfdom F -> hand G a b known = Some G' ->
  exists fa fb, takable F (nm a) (nm b) fa fb /\
    fsim nm n G' (take F (nm a) (nm b) fa fb (if known then fend fb else None)).
Proof.
  intros S D H. destruct (hand_parts _ _ _ _ _ H) as (ta & tb & Ga & Gb & Pb & Nab & Nak & ->). clear H.
  destruct (fs_node _ _ _ _ S a ta Ga) as (fa & Fa & Ka & Va & Pa).
  destruct (fs_node _ _ _ _ S b tb Gb) as (fb & Fb & Kb & Vb & Pfb). rewrite Pb in Pfb. cbn [option_map] in Pfb.
  assert (Kid : forall x, In x (nkids (tvalue tb)) -> exists tx, G x = Some tx /\ tpar tx = Some b).
  { intros x Hx. destruct (tvalue tb) as [| | | |ob kids] eqn:V; try destruct Hx. eapply (fs_kids _ _ _ _ S b tb ob kids); eauto. }
  assert (Nab' : nm a <> nm b) by (eapply fs_neq; eauto; congruence).
  assert (Nak' : ~ In (nm a) (kids_in (fvalue fb))).
  { rewrite Vb, kids_img. intro K. apply Nak. eapply (fs_in nm n G F a); eauto; [congruence|]. intros c Hc. destruct (Kid c Hc) as (tx & E & _). congruence. }
  assert (Tk : takable F (nm a) (nm b) fa fb) by (constructor; auto).
  exists fa, fb. split; auto. set (fe := if known then fend fb else None).
  assert (Hfe : fe = None \/ nm b = nm b /\ fe = fend fb) by (unfold fe; destruct known; auto).
  set (F' := take F (nm a) (nm b) fa fb fe).
  match goal with |- fsim _ _ ?g _ => set (G' := g) end.
  assert (Gb' : G' b = None) by (unfold G'; now rewrite N.eqb_refl).
  assert (Ga' : G' a = Some (mkT (tkey ta) (tvalue tb) (tpar ta) (tprev ta) ((known && tend tb) || nilb (nkids (tvalue tb))) (tstop tb))).
  { unfold G'. destruct (N.eqb_spec a b); [congruence|]. now rewrite N.eqb_refl. }
  assert (Fa' : F' (nm a) = Some (taken_node fa fb fe)) by (unfold F'; now apply take_a).
  assert (Inv : forall k t, G' k = Some t -> k <> a -> k <> b /\ exists t0, G k = Some t0 /\ tkey t = tkey t0 /\ tvalue t = tvalue t0 /\
    tprev t = tprev t0 /\ tend t = tend t0 /\ tpar t = if isinN k (nkids (tvalue tb)) then Some a else tpar t0).
  { intros k t E N1. unfold G' in E. destruct (N.eqb_spec k b); [discriminate|]. split; auto. destruct (N.eqb_spec k a); [congruence|].
    destruct (isinN k (nkids (tvalue tb))); [|exists t; auto 10]. destruct (G k) as [t0|]; [|discriminate]. cbn in E. injection E as <-.
    exists t0. auto 10. }
  assert (Dm : forall k, G' k <> None <-> G k <> None /\ k <> b).
  { intro k. unfold G'. destruct (N.eqb_spec k b) as [->|N2]; [split; [congruence|tauto]|].
    destruct (N.eqb_spec k a) as [->|N1]; [split; [split; congruence|congruence]|].
    destruct (isinN k (nkids (tvalue tb))); [|tauto]. destruct (G k); cbn; [split; [intros _; split; congruence|congruence]|split; [congruence|tauto]]. }
  assert (View : forall k t f0, G k = Some t -> F (nm k) = Some f0 -> k <> a -> k <> b -> exists f1, F' (nm k) = Some f1 /\ fkey f1 = fkey f0 /\
    fvalue f1 = fvalue f0 /\ fprev f1 = fprev f0 /\ fend f1 = fend f0 /\ fpar f1 = if isinN k (nkids (tvalue tb)) then Some (nm a) else fpar f0).
  { intros k t f0 Ek F0 N1 N2. assert (M1 : nm k <> nm a) by (eapply fs_neq; eauto; congruence). assert (M2 : nm k <> nm b) by (eapply fs_neq; eauto; congruence).
    destruct (isinN k (nkids (tvalue tb))) eqn:Ik.
    - apply isinN_true in Ik. exists (set_par (Some (nm a)) f0). split; [|auto 10]. unfold F'. apply take_kid; auto.
      rewrite Vb, kids_img. now apply in_map.
    - apply isinN_false in Ik. exists f0. split; [|auto 10]. unfold F'. rewrite (take_other _ _ _ _ _ (nm b) fe Hfe); auto.
      intros [K|K]; [auto|]. apply Ik. rewrite Vb, kids_img in K. eapply (fs_in nm n G F k); eauto; [congruence|].
      intros c Hc. destruct (Kid c Hc) as (tx & E & _). congruence. }
  assert (Nkb : forall q tq ob' kq x, G q = Some tq -> tvalue tq = NCont ob' kq -> In x kq -> x <> b).
  { intros q tq ob' kq x Eq Vq Hx ->. destruct (fs_kids _ _ _ _ S q tq ob' kq b Eq Vq Hx) as (t2 & E2 & P2). congruence. }
  constructor.
  - intros k t E. destruct (N.eq_dec k a) as [->|N1].
    { rewrite Ga' in E. injection E as <-. eexists. split; [exact Fa'|]. split; [cbn; congruence|]. split; cbn; congruence. }
    destruct (Inv k t E N1) as (N2 & t0 & E0 & B1 & B2 & B3 & B4 & B5). destruct (fs_node _ _ _ _ S k t0 E0) as (f0 & F0 & A & B & C).
    destruct (View k t0 f0 E0 F0 N1 N2) as (f1 & F1 & C1 & C2 & _ & _ & C5). exists f1. split; auto. split; [congruence|]. split; [congruence|].
    rewrite C5, B5. destruct (isinN k (nkids (tvalue tb))); auto.
  - intros k t E. split.
    + assert (G k <> None /\ k <> b) as [K _] by (apply Dm; congruence). destruct (G k) eqn:X; [|congruence]. eapply fs_bound; eauto.
    + intros q Hq. destruct (N.eq_dec k a) as [->|N1]; [rewrite Ga' in E; injection E as <-; cbn in Hq; eapply (fs_pbound nm n G F a ta); eauto|].
      destruct (Inv k t E N1) as (N2 & t0 & E0 & _ & _ & _ & _ & B5). rewrite B5 in Hq. destruct (isinN k (nkids (tvalue tb))).
      * injection Hq as <-. eapply fs_bound; eauto.
      * eapply fs_pbound; eauto.
  - intros x y Hx Hy. apply (fs_inj _ _ _ _ S); now apply Dm.
  - assert (Get : forall x, G x <> None -> x <> b -> exists tx, G' x = Some tx).
    { intros x Hx Nx. destruct (G' x) eqn:E; eauto. exfalso. apply (proj2 (Dm x)); auto. }
    intros k t ob kids x E V Hx. destruct (N.eq_dec k a) as [->|N1].
    { rewrite Ga' in E. injection E as <-. cbn in V. assert (Hx' : In x (nkids (tvalue tb))) by (now rewrite V).
      destruct (Kid x Hx') as (tx & X & Y). assert (x <> a) by (intros ->; contradiction).
      destruct (Get x) as (tx' & X'); [congruence|exact (Nkb b tb ob kids x Gb V Hx)|]. exists tx'. split; auto.
      destruct (Inv x tx' X') as (_ & t0 & E0 & _ & _ & _ & _ & B5); auto.
      apply isinN_true in Hx'. now rewrite Hx' in B5. }
    destruct (Inv k t E N1) as (N2 & t0 & E0 & _ & B2 & _). rewrite B2 in V.
    destruct (fs_kids _ _ _ _ S k t0 ob kids x E0 V Hx) as (tx & X & Y).
    destruct (Get x) as (tx' & X'); [congruence|exact (Nkb k t0 ob kids x E0 V Hx)|]. exists tx'. split; auto.
    destruct (N.eq_dec x a) as [->|Nx]; [rewrite Ga' in X'; injection X' as <-; cbn; congruence|].
    destruct (Inv x tx' X' Nx) as (_ & t2 & E2 & _ & _ & _ & _ & B5). destruct (isinN x (nkids (tvalue tb))) eqn:Ix; [|congruence].
    apply isinN_true in Ix. destruct (Kid x Ix) as (t3 & E3 & P3). congruence.
  - assert (Old : forall q tq ob' l x r tx fx, G q = Some tq -> tvalue tq = NCont ob' (l ++ x :: r) -> G' x = Some tx -> tprev tx = true ->
      F' (nm x) = Some fx -> fprev fx = option_map nm (last_error l)).
    { intros q tq ob' l x r tx fx Eq Vq Ex Px Fx. destruct (N.eq_dec x a) as [->|N1].
      - rewrite Ga' in Ex. injection Ex as <-. cbn in Px. rewrite Fa' in Fx. injection Fx as <-. cbn.
        eapply (fs_prev _ _ _ _ S q tq ob' l a r ta fa); eauto.
      - destruct (Inv x tx Ex N1) as (N2 & t0 & E0 & _ & _ & B3 & _). destruct (fs_node _ _ _ _ S x t0 E0) as (f0 & F0 & _).
        destruct (View x t0 f0 E0 F0 N1 N2) as (f1 & F1 & _ & _ & C3 & _). replace fx with f1 by congruence. rewrite C3.
        eapply (fs_prev _ _ _ _ S q tq ob' l x r t0 f0); eauto; congruence. }
    intros k t ob' l x r tx fx E V Ex Px Fx. destruct (N.eq_dec k a) as [->|N1].
    { rewrite Ga' in E. injection E as <-. cbn in V. eapply (Old b tb); eauto. }
    destruct (Inv k t E N1) as (N2 & t0 & E0 & _ & B2 & _). rewrite B2 in V. eapply (Old k t0); eauto.
  - intros k t ob kids fk E V Hk Te Fk. destruct (N.eq_dec k a) as [->|N1].
    { rewrite Ga' in E. injection E as <-. cbn in V, Te. rewrite Fa' in Fk. injection Fk as <-. cbn. rewrite Vb, V. cbn [vimg]. rewrite V in Te.
      apply orb_true_iff in Te as [Te|Te]; [|cbn in Te; apply nilb_true in Te; contradiction].
      apply andb_true_iff in Te as [-> Te]. unfold fe. eapply (fs_end _ _ _ _ S b tb); eauto. }
    destruct (Inv k t E N1) as (N2 & t0 & E0 & _ & B2 & _ & B4 & _). rewrite B2 in V. destruct (fs_node _ _ _ _ S k t0 E0) as (f0 & F0 & _).
    destruct (View k t0 f0 E0 F0 N1 N2) as (f1 & F1 & _ & _ & _ & C4 & _). replace fk with f1 by congruence. rewrite C4.
    eapply (fs_end _ _ _ _ S k t0); eauto; congruence.
  - intros k t f1 E Ts F1. destruct (N.eq_dec k a) as [->|N1].
    { rewrite Ga' in E. injection E as <-. rewrite Fa' in F1. injection F1 as <-. cbn in *. eapply (fs_stop _ _ _ _ S b tb); eauto. }
    destruct (Inv k t E N1) as (N2 & t1 & E1 & _).
    assert (M1 : nm k <> nm a) by (eapply fs_neq; eauto; congruence).
    destruct (take_stop _ _ _ _ _ _ _ _ M1 F1) as (f0 & F0 & ->).
    assert (exists t0, G k = Some t0 /\ tstop t = tstop t0) as (t0 & E0 & St).
    { unfold G' in E. destruct (N.eqb_spec k b); [discriminate|]. destruct (N.eqb_spec k a); [congruence|].
      destruct (isinN k (nkids (tvalue tb))); [|eauto]. destruct (G k) as [t0|]; [|discriminate]. injection E as <-. eauto. }
    eapply (fs_stop _ _ _ _ S k t0); eauto; congruence.
Qed.
