(** The documents of a program are trees: below every node of the forest that a covered
    program reaches there are finitely many nodes, so that every value can be printed
    and copied. *)
From Verif Require Import Base Spec SpecProofs PureParse Dom Scene Hist HistRun HistForest HistSim HistStep HistAll HistMany HistWorld HistValid.
From Coq Require Import ZifyN FinFun.

Definition nv (G : forest) (i : N) : option nval := option_map tvalue (G i).
Inductive tr (G : forest) : N -> Prop :=
| tr_in i v : nv G i = Some v -> (forall c, In c (nkids v) -> tr G c) -> tr G i.

Lemma nv_some G i t : G i = Some t -> nv G i = Some (tvalue t). Proof. unfold nv. now intros ->. Qed.
Lemma nv_none G i : nv G i = None <-> G i = None. Proof. unfold nv. destruct (G i); split; auto; discriminate. Qed.
Lemma tr_inv G i v : tr G i -> nv G i = Some v -> forall c, In c (nkids v) -> tr G c.
Proof. intros H E. destruct H as [i v' E' H]. assert (v' = v) by congruence. now subst. Qed.
Lemma tr_some G i : tr G i -> G i <> None.
Proof. intros [i' v E _] K. unfold nv in E. now rewrite K in E. Qed.

(** ** Reading *)
Lemma mapo_some {X Y} (f : X -> option Y) l : (forall x, In x l -> f x <> None) -> mapo f l <> None.
Proof.
  induction l as [|x r IH]; cbn; intro H; [discriminate|]. destruct (f x) eqn:E; [|now elim (H x (or_introl eq_refl))].
  destruct (mapo f r); [discriminate|]. elim IH; auto.
Qed.
Lemma read_tr G : forall k i j, read k G i = Some j -> tr G i.
Proof.
  induction k as [|k IH]; cbn [read]; intros i j H; [discriminate|]. destruct (G i) as [t|] eqn:E; [|discriminate].
  apply (tr_in G i (tvalue t)); [now apply nv_some|]. destruct (tvalue t) as [| | | |ob kids]; cbn; try tauto. intros c Hc.
  destruct (mapo _ kids) as [items|] eqn:Em; [|discriminate]. apply mapo_in in Em. clear H. induction Em as [|x y l r Hx _ IHl]; [easy|].
  destruct Hc as [->|Hc]; [|now apply IHl]. destruct (G c); [|discriminate]. destruct (read k G c) eqn:Er; [|discriminate]. eauto.
Qed.

Inductive sb (G : forest) (i : N) : N -> Prop :=
| sb_kid v c : nv G i = Some v -> In c (nkids v) -> sb G i c
| sb_more d v c : sb G i d -> nv G d = Some v -> In c (nkids v) -> sb G i c.
Lemma sb_front G i v c d : nv G i = Some v -> In c (nkids v) -> sb G c d -> sb G i d.
Proof. intros E Hc H. induction H as [v' c' E' H'|d v' c' _ IH E' H']; [eapply sb_more; [eapply sb_kid; eauto| |]; eauto|eapply sb_more; eauto]. Qed.
Lemma sb_first G i d : sb G i d -> exists v c, nv G i = Some v /\ In c (nkids v) /\ (c = d \/ sb G c d).
Proof.
  induction 1 as [v c E H|d v c _ (v0 & c0 & E0 & H0 & K) E H]; [eauto 6|]. exists v0, c0. split; auto. split; auto. right.
  destruct K as [->|K]; [eapply sb_kid; eauto|eapply sb_more; eauto].
Qed.
Lemma tr_acyclic G i : tr G i -> ~ sb G i i.
Proof.
  induction 1 as [i v E _ IH]. intro H. destruct (sb_first _ _ _ H) as (v' & c & E' & Hc & K). assert (v' = v) by congruence. subst v'.
  apply (IH c Hc). destruct K as [->|K]; [exact H|]. eapply sb_more; eauto.
Qed.
Lemma short (n : N) l : NoDup l -> (forall x, In x l -> x < n) -> (length l <= N.to_nat n)%nat.
Proof.
  intros H K. rewrite <- (map_length N.to_nat l). rewrite <- (seq_length (N.to_nat n) 0). apply NoDup_incl_length.
  - apply Injective_map_NoDup; auto. intros x y. apply N2Nat.inj.
  - intros y Hy. apply in_map_iff in Hy as (x & <- & Hx). apply in_seq. specialize (K x Hx). lia.
Qed.
Lemma tr_read_path G n : (forall i, G i <> None -> i < n) -> forall m i path, tr G i -> (N.to_nat n <= length path + m)%nat ->
  NoDup path -> ~ In i path -> (forall p, In p path -> p < n /\ tr G p /\ sb G p i) -> read (Datatypes.S m) G i <> None.
Proof.
  intro B. induction m as [|m IH]; intros i path T L ND Hi P.
  - pose proof (short n (i :: path)) as K. cbn [length] in K. enough (Datatypes.S (length path) <= N.to_nat n)%nat by lia. apply K.
    + now constructor.
    + intros x [<-|Hx]; [apply B; now apply tr_some|now apply P].
  - cbn [read]. destruct (G i) as [t|] eqn:E; [|now elim (tr_some _ _ T)]. pose proof (nv_some _ _ _ E) as Ev.
    destruct (tvalue t) as [| | | |ob kids] eqn:Et; try discriminate.
    enough (K : mapo (fun c => match G c, read (Datatypes.S m) G c with Some tc, Some j => Some (tkey tc, j) | _, _ => None end) kids <> None).
    { cbn [read] in K. destruct (mapo _ kids); [discriminate|now elim K]. }
    apply mapo_some. intros c Hc. pose proof (tr_inv _ _ _ T Ev c Hc) as Tc. destruct (G c) as [tc|] eqn:Ec; [|now elim (tr_some _ _ Tc)].
    enough (K : read (Datatypes.S m) G c <> None) by (destruct (read (Datatypes.S m) G c); [discriminate|now elim K]).
    assert (Sc : forall p, In p (i :: path) -> p < n /\ tr G p /\ sb G p c).
    { intros p [<-|Hp].
      - split; [apply B; congruence|]. split; auto. eapply sb_kid; eauto.
      - destruct (P p Hp) as (? & ? & ?). split; auto. split; auto. eapply sb_more; eauto. }
    apply (IH c (i :: path)); auto.
    + cbn [length]. lia.
    + now constructor.
    + intro Hp. destruct (Sc c Hp) as (_ & Tp & K). exact (tr_acyclic _ _ Tp K).
Qed.
Lemma tr_read G n i : (forall i, G i <> None -> i < n) -> tr G i -> exists j, read (Datatypes.S (N.to_nat n)) G i = Some j.
Proof.
  intros B T. destruct (read (Datatypes.S (N.to_nat n)) G i) as [j|] eqn:E; [eauto|].
  elim (tr_read_path G n B (N.to_nat n) i [] T); cbn; auto; try lia; try tauto. constructor.
Qed.

(** ** Planting *)
Definition like (h G : forest) : Prop := forall k, h k <> None -> nv G k = nv h k.
Definition inside (v : nval) (h : forest) (n n' : N) : Prop :=
  n <= n' /\ (forall k, h k <> None <-> n <= k < n') /\ (forall c, In c (nkids v) -> h c <> None) /\
  forall G, like h G -> forall k, h k <> None -> tr G k.
Lemma plantL_in (items : list (option bytes * json)) : forall i n,
    Forall (fun kj => forall i n, let '(v, h, n') := plant i (snd kj) n in inside v h n n') items ->
    let '(ks, h, n') := plantL i items n in inside (NCont true ks) h n n'.
Proof.
  induction items as [|[k x] r IH]; intros i n H; cbn [plantL].
    - split; [lia|]. split; [intro k; unfold noforest; split; [now intro K|lia]|]. split; [easy|]. intros G _ k K. now elim K.
    - inversion H as [|? ? Hx Hr]; subst. cbn [fst snd] in *. specialize (Hx n (n + 1)). destruct (plant n x (n + 1)) as [[v h1] n1].
      specialize (IH i n1 Hr). destruct (plantL i r n1) as [[ks h2] n2]. destruct Hx as (A1 & A2 & A3 & A4), IH as (B1 & B2 & B3 & B4).
      cbn [nkids] in *. set (g := put (over h1 h2) n _).
      assert (g1 : forall y, h1 y <> None -> g y = h1 y).
      { intros y Hy. unfold g, put. destruct (N.eqb_spec y n) as [->|_]; [apply A2 in Hy; lia|]. unfold over. destruct (h1 y); [auto|now elim Hy]. }
      assert (g2 : forall y, h2 y <> None -> g y = h2 y).
      { intros y Hy. unfold g, put. destruct (N.eqb_spec y n) as [->|_]; [apply B2 in Hy; lia|]. unfold over. destruct (h1 y) eqn:E1; auto.
        assert (K : h1 y <> None) by congruence. apply A2 in K. apply B2 in Hy. lia. }
      assert (gn : g n <> None) by (unfold g, put; rewrite N.eqb_refl; discriminate).
      assert (D : forall y, g y <> None <-> y = n \/ h1 y <> None \/ h2 y <> None).
      { intro y. split.
        - unfold g, put. destruct (N.eqb_spec y n) as [->|_]; [auto|]. unfold over. destruct (h1 y); auto.
        - intros [->|[K|K]]; auto; [rewrite g1|rewrite g2]; auto. }
      split; [lia|]. split; [|split].
      + intro y. rewrite D, A2, B2. lia.
      + intros c [<-|Hc]; auto. apply D. right. right. now apply B3.
      + intros G Lk. assert (L1 : like h1 G).
        { intros y Hy. rewrite Lk; [|apply D; auto]. unfold nv. now rewrite g1. }
        assert (L2 : like h2 G).
        { intros y Hy. rewrite Lk; [|apply D; auto]. unfold nv. now rewrite g2. }
        intros y Hy. apply D in Hy as [->|[K|K]]; auto. apply (tr_in G n v).
        * rewrite Lk by auto. unfold nv, g, put. now rewrite N.eqb_refl.
        * intros c Hc. auto. 
Qed.
Lemma plant_inside : forall j i n, let '(v, h, n') := plant i j n in inside v h n n'.
Proof.
  pose proof plantL_in as L.
  induction j as [|b|t|b|l IH|l IH] using json_ind2; intros i n;
    try (cbn; split; [lia|]; split; [intro k; unfold noforest; split; [now intro K|lia]|]; split; [easy|]; intros G _ k K; now elim K).
  - rewrite plant_arr. match goal with |- context [plantL ?a ?b ?c] => specialize (L b a c); destruct (plantL a b c) as [[ks h] n'] end.
    apply L. apply Forall_forall. intros kj Hk. apply in_map_iff in Hk as (x & <- & Hx). cbn [fst snd]. rewrite Forall_forall in IH. intros. now apply IH.
  - rewrite plant_obj. match goal with |- context [plantL ?a ?b ?c] => specialize (L b a c); destruct (plantL a b c) as [[ks h] n'] end.
    apply L. apply Forall_forall. intros kj Hk. apply in_map_iff in Hk as (x & <- & Hx). cbn [fst snd]. rewrite Forall_forall in IH. intros. now apply (IH x Hx).
Qed.
Lemma plantL_inside items i n : let '(ks, h, n') := plantL i items n in inside (NCont true ks) h n n'.
Proof. apply plantL_in. apply Forall_forall. intros kj _. apply plant_inside. Qed.

(** ** Steps *)
Definition trees (G : forest) : Prop := forall i, G i <> None -> tr G i.
(** Kids point back, numbers are small. *)
Record shape (n : N) (G : forest) : Prop := {
  sh_lt : forall i, G i <> None -> i < n;
  sh_kids : forall i t c, G i = Some t -> In c (nkids (tvalue t)) -> exists tc, G c = Some tc /\ tpar tc = Some i;
  sh_nd : forall i t, G i = Some t -> NoDup (nkids (tvalue t))
}.
Lemma fsim_shape nm n G F : fsim nm n G F -> wfdom F -> shape n G.
Proof.
  intros S D. constructor.
  - intros i H. destruct (G i) as [t|] eqn:E; [|now elim H]. exact (fs_bound _ _ _ _ _ _ S E).
  - intros i t c E Hc. destruct (tvalue t) as [| | | |ob kids] eqn:Et; try easy. exact (fs_kids _ _ _ _ S i t ob kids c E Et Hc).
  - intros i t E. destruct (tvalue t) as [| | | |ob kids] eqn:Et; cbn; try constructor. exact (proj2 (fs_nodup _ _ _ _ _ _ _ _ S D E Et)).
Qed.

Lemma tr_same G G' : (forall x, nv G' x = nv G x) -> forall i, tr G i -> tr G' i.
Proof. intros H i T. induction T as [i v E _ IH]. apply (tr_in G' i v); auto. now rewrite H. Qed.
Lemma reread G G' : (forall x v, nv G x = Some v -> tr G' x \/ exists v', nv G' x = Some v' /\ incl (nkids v') (nkids v)) -> forall i, tr G i -> tr G' i.
Proof. intros H i T. induction T as [i v E _ IH]. destruct (H i v E) as [K|(v' & K1 & K2)]; auto. apply (tr_in G' i v'); auto. Qed.
Lemma dom_nv G x : G x <> None <-> exists v, nv G x = Some v.
Proof. unfold nv. destruct (G x); cbn; split; intro H; eauto; try discriminate; [now elim H|]. destruct H. discriminate. Qed.

(** A subtree [v]/[g] put over [G] at [i]. *)
Lemma graft_trees G n i v g n' t : trees G -> inside v g n n' -> i < n -> tvalue t = v -> trees (put (over g G) i t).
Proof.
  intros T (I1 & I2 & I3 & I4) Hi Hv. set (G' := put (over g G) i t).
  assert (Lk : like g G').
  { intros k Hk. unfold nv, G', put. destruct (N.eqb_spec k i) as [->|_]; [apply I2 in Hk; lia|]. unfold over. destruct (g k); [auto|now elim Hk]. }
  assert (Ti : tr G' i).
  { apply (tr_in G' i v); [unfold nv, G', put; rewrite N.eqb_refl; cbn; congruence|]. intros c Hc. apply (I4 G' Lk). auto. }
  assert (TG : forall x, G x <> None -> tr G' x).
  { intros x Hx. apply (reread G G'); [|now apply T]. intros y w Hy. destruct (N.eqb_spec y i) as [->|Ny]; auto.
    assert (Hy' : G y <> None) by (apply dom_nv; eauto). destruct (g y) eqn:Eg.
    - left. apply (I4 G' Lk). congruence.
    - right. exists w. split; [|apply incl_refl]. rewrite <- Hy. unfold nv, G', put, over. rewrite (proj2 (N.eqb_neq _ _) Ny), Eg. auto. }
  intros x Hx. destruct (N.eqb_spec x i) as [->|Nx]; auto. unfold G', put, over in Hx. rewrite (proj2 (N.eqb_neq _ _) Nx) in Hx.
  destruct (g x) eqn:Eg; [|now apply TG]. apply (I4 G' Lk). congruence.
Qed.

Lemma reread' G G' : (forall x v, nv G x = Some v -> tr G' x \/ exists v', nv G' x = Some v' /\ forall c, In c (nkids v') -> In c (nkids v) \/ tr G' c) ->
  forall i, tr G i -> tr G' i.
Proof. intros H i T. induction T as [i v E _ IH]. destruct (H i v E) as [K|(v' & K1 & K2)]; auto. apply (tr_in G' i v'); auto. intros c Hc. destruct (K2 c Hc); auto. Qed.

Lemma unhook_nv G i G' : unhook G i = Some G' -> (forall x, nv G' x = nv G x) /\ (exists t, G i = Some t /\ tpar t = None) \/
  exists p t tp ob l r, G i = Some t /\ tpar t = Some p /\ G p = Some tp /\ tvalue tp = NCont ob (l ++ i :: r) /\
    nv G' p = Some (NCont ob (l ++ r)) /\ forall x, x <> p -> nv G' x = nv G x.
Proof.
  intro E. unfold unhook in E. destruct (G i) as [t|] eqn:Ei; [|discriminate]. destruct (tpar t) as [p|] eqn:Epar; [|injection E as <-; left; eauto].
  destruct (G p) as [tp|] eqn:Ep; [|discriminate]. destruct (tvalue tp) as [| | | |ob kids] eqn:Ev; try discriminate.
  destruct (split_at i kids) as [[l r]|] eqn:Es; [|discriminate]. apply split_at_ok in Es. destruct (tprev t && _) eqn:Ec; [|discriminate]. injection E as <-.
  apply andb_true_iff in Ec as [_ Ec]. apply negb_true_iff, isinN_false in Ec. subst kids.
  right. exists p, t, tp, ob, l, r. split; auto. split; auto. split; auto. split; auto.
  assert (Np : p <> i) by (intros ->; apply Ec, in_app_iff; right; now left). unfold nv. split.
  - rewrite (proj2 (N.eqb_neq p i) Np), N.eqb_refl. reflexivity.
  - intros x Hx. destruct (N.eqb_spec x i) as [->|_]; [now rewrite Ei|]. rewrite (proj2 (N.eqb_neq x p) Hx).
    destruct (match r with [] => false | y :: _ => x =? y end); auto. now destruct (G x).
Qed.
Lemma unhook_trees G i G' : trees G -> unhook G i = Some G' -> trees G'.
Proof.
  intros T E. assert (K : forall x, tr G x -> tr G' x).
  { apply reread. intros x v Hx. right. destruct (unhook_nv _ _ _ E) as [[K _]|(p & t & tp & ob & l & r & _ & _ & Ep & Ev & K1 & K2)].
    - exists v. split; [now rewrite K|apply incl_refl].
    - destruct (N.eqb_spec x p) as [->|Nx]; [|exists v; split; [now rewrite K2|apply incl_refl]]. exists (NCont ob (l ++ r)). split; auto.
      apply nv_some in Ep. rewrite Ep, Ev in Hx. injection Hx as <-. intros c Hc. cbn in *. apply in_app_iff in Hc. apply in_app_iff. cbn. tauto. }
  intros x Hx. apply K, T. now apply (unhook_dom _ _ _ x E).
Qed.
Lemma unhook_root n G i G' x v : shape n G -> unhook G i = Some G' -> nv G' x = Some v -> ~ In i (nkids v).
Proof.
  intros Sh E Hx Hi. destruct (unhook_nv _ _ _ E) as [[K (t & Et & Ep)]|(p & t & tp & ob & l & r & Et & Epar & Ep & Ev & K1 & K2)].
  - rewrite K in Hx. unfold nv in Hx. destruct (G x) as [tx|] eqn:Ex; [|discriminate]. injection Hx as <-.
    destruct (sh_kids _ _ Sh x tx i Ex Hi) as (tc & E1 & E2). congruence.
  - destruct (N.eqb_spec x p) as [->|Nx].
    + rewrite K1 in Hx. injection Hx as <-. pose proof (sh_nd _ _ Sh p tp Ep) as ND. rewrite Ev in ND. cbn in *. apply NoDup_remove_2 in ND. contradiction.
    + rewrite K2 in Hx by auto. unfold nv in Hx. destruct (G x) as [tx|] eqn:Ex; [|discriminate]. injection Hx as <-.
      destruct (sh_kids _ _ Sh x tx i Ex Hi) as (tc & E1 & E2). congruence.
Qed.
Lemma rekey_nv G i k x : nv (rekeyN G i k) x = nv G x.
Proof. unfold nv, rekeyN. destruct (x =? i); auto. now destruct (G x). Qed.
Lemma rekey_trees G i k : trees G -> trees (rekeyN G i k).
Proof. intros T x Hx. apply (tr_same G); [intro; apply rekey_nv|]. apply T. apply dom_nv. apply dom_nv in Hx. now rewrite rekey_nv in Hx. Qed.

Lemma hang_nv G ob a c G' : hang G ob a c = Some G' -> a <> c /\ (forall x, x <> a -> nv G' x = nv G x) /\
  exists kids, nv G a = Some (NCont ob kids) /\ nv G' a = Some (NCont ob (kids ++ [c])).
Proof.
  intro E. apply hang_parts in E as (ta & tc & kids & Ea & Ec & Ev & _ & Nac & _ & _ & _ & ->). split; auto. split.
  - intros x Hx. unfold nv. destruct (N.eqb_spec x c) as [->|_]; [now rewrite Ec|]. now rewrite (proj2 (N.eqb_neq x a) Hx).
  - exists kids. unfold nv. rewrite Ea, (proj2 (N.eqb_neq a c) Nac), N.eqb_refl. cbn. now rewrite Ev.
Qed.
Lemma hang_dom G ob a c G' x : hang G ob a c = Some G' -> (G' x <> None <-> G x <> None).
Proof.
  intro E. apply hang_parts in E as (ta & tc & kids & Ea & Ec & Ev & _ & Nac & _ & _ & _ & ->).
  destruct (N.eqb_spec x c) as [->|_]; [rewrite Ec; split; discriminate|]. destruct (N.eqb_spec x a) as [->|_]; [rewrite Ea; split; discriminate|tauto].
Qed.
(** [c] is a tree in the result: so is everything. *)
Lemma hang_trees G ob a c G' : trees G -> hang G ob a c = Some G' -> tr G' c -> trees G'.
Proof.
  intros T E Tc x Hx. apply (hang_dom _ _ _ _ _ x E) in Hx. destruct (hang_nv _ _ _ _ _ E) as (_ & K & kids & Ka & Ka').
  apply (reread' G); [|now apply T]. intros y v Hy. right. destruct (N.eqb_spec y a) as [->|Ny].
  - exists (NCont ob (kids ++ [c])). split; auto. rewrite Ka in Hy. injection Hy as <-. intros z Hz. cbn in *. apply in_app_iff in Hz as [Hz|[<-|[]]]; auto.
  - exists v. rewrite K by auto. auto.
Qed.
Lemma hang_checked G ob a c G' : hang G ob a c = Some G' -> tr G' a -> tr G' c.
Proof.
  intros E T. destruct (hang_nv _ _ _ _ _ E) as (_ & _ & kids & _ & Ka). apply (tr_inv _ _ _ T Ka). cbn. apply in_app_iff. right. now left.
Qed.
Lemma hand_nv G a b kn G' : hand G a b kn = Some G' -> a <> b /\ G' b = None /\ nv G' a = nv G b /\ (G a <> None) /\ forall x, x <> a -> x <> b -> nv G' x = nv G x.
Proof.
  intro E. apply hand_parts in E as (ta & tb & Ea & Eb & _ & Nab & Na & ->). split; auto. rewrite N.eqb_refl. split; auto. split; [|split; [congruence|]].
  - unfold nv. rewrite (proj2 (N.eqb_neq a b) Nab), N.eqb_refl, Eb. reflexivity.
  - intros x Hx Hb. unfold nv. rewrite (proj2 (N.eqb_neq x b) Hb), (proj2 (N.eqb_neq x a) Hx). destruct (isinN x _); auto. now destruct (G x).
Qed.
(** Nothing has [b] as a child. *)
Lemma hand_trees G a b kn G' : trees G -> hand G a b kn = Some G' -> (forall x v, nv G x = Some v -> ~ In b (nkids v)) -> tr G' a -> trees G'.
Proof.
  intros T E Nb Ta. destruct (hand_nv _ _ _ _ _ E) as (Nab & Eb & Ka & Ha & K).
  assert (L : forall x, tr G x -> x <> b -> tr G' x).
  { intros x Tx. induction Tx as [x v Ex _ IH]. intro Hx. destruct (N.eqb_spec x a) as [->|Nx]; auto. apply (tr_in G' x v); [now rewrite K|].
    intros c Hc. apply IH; auto. intros ->. exact (Nb x v Ex Hc). }
  intros x Hx. destruct (N.eqb_spec x b) as [->|Nx]; [contradiction|]. destruct (N.eqb_spec x a) as [->|Nxa]; auto. apply L; auto. apply T.
  apply dom_nv in Hx. rewrite K in Hx by auto. now apply dom_nv.
Qed.

Lemma assign_trees R h w j : trees (rG R) -> (forall i t, w = Some (i, t) -> i < rn R) -> trees (rG (assign R h w j)).
Proof.
  intros H Hw. unfold assign. destruct w as [[i t]|].
  - pose proof (plant_inside j i (rn R)) as P. destruct (plant i j (rn R)) as [[v g] n']. cbn [rG].
    eapply graft_trees; eauto.
  - pose proof (plant_inside j (rn R) (rn R + 1)) as P. destruct (plant (rn R) j (rn R + 1)) as [[v g] n']. cbn [rG with_handle].
    eapply graft_trees; eauto. lia.
Qed.
Lemma sealed_nv R0 w R x : nv (rG (sealed R0 w R)) x = nv (rG R) x.
Proof. unfold nv. cbn [sealed with_forest rG]. destruct (_ || _); auto. now destruct (rG R x). Qed.
Lemma nv_trees G G' : (forall x, nv G' x = nv G x) -> trees G -> trees G'.
Proof.
  intros E H x Hx. apply dom_nv in Hx. rewrite E in Hx. apply dom_nv in Hx. specialize (H x Hx). clear Hx.
  induction H as [x v Ev _ IH]. apply (tr_in G' x v); [now rewrite E|auto].
Qed.
Lemma sealed_trees R0 w R : trees (rG R) -> trees (rG (sealed R0 w R)).
Proof. apply nv_trees. apply sealed_nv. Qed.
(** A copy: the new nodes are a tree whatever is done to the old ones. *)
Lemma duplicate_trees R t j : trees (rG R) -> trees (rG (duplicate R t j)).
Proof.
  intros H. unfold duplicate. pose proof (plant_inside j (rn R) (rn R + 1)) as P. destruct (plant (rn R) j (rn R + 1)) as [[v g] n'].
  cbn [rG]. eapply graft_trees; eauto. lia.
Qed.
Lemma duplicate_fresh R t j a G' : (forall x, x <> a -> x <> rn R -> nv G' x = nv (rG (duplicate R t j)) x) -> a < rn R ->
  forall v, nv (rG (duplicate R t j)) (rn R) = Some v -> forall c, In c (nkids v) -> tr G' c.
Proof.
  unfold duplicate. pose proof (plant_inside j (rn R) (rn R + 1)) as P. destruct (plant (rn R) j (rn R + 1)) as [[v0 g] n']. cbn [rG].
  destruct P as (I1 & I2 & I3 & I4). intros K Ha v Hv c Hc. unfold nv at 1, put in Hv. rewrite N.eqb_refl in Hv. injection Hv as <-.
  apply (I4 G'); [|now apply I3]. intros k Hk. assert (n1 : rn R + 1 <= k < n') by now apply I2. rewrite K by lia. unfold nv, put.
  rewrite (proj2 (N.eqb_neq k (rn R))) by lia. unfold over. destruct (g k); [auto|now elim Hk].
Qed.
Lemma duplicate_root R t j : exists v, nv (rG (duplicate R t j)) (rn R) = Some v.
Proof. unfold duplicate. destruct (plant (rn R) j (rn R + 1)) as [[v g] n']. exists v. unfold nv, put. cbn [rG]. now rewrite N.eqb_refl. Qed.
Lemma duplicate_kids R t j x v : shape (rn R) (rG R) -> nv (rG (duplicate R t j)) x = Some v -> ~ In (rn R) (nkids v).
Proof.
  intros Sh. unfold duplicate. pose proof (plant_inside j (rn R) (rn R + 1)) as P. destruct (plant (rn R) j (rn R + 1)) as [[v0 g] n']. cbn [rG].
  destruct P as (I1 & I2 & I3 & I4). intros Hv Hc. unfold nv, put in Hv.
  assert (Ng : g (rn R) = None).
  { destruct (g (rn R)) eqn:E; auto. assert (K : g (rn R) <> None) by congruence. apply I2 in K. lia. }
  destruct (N.eqb_spec x (rn R)) as [->|Nx]; [injection Hv as <-; now apply I3 in Hc|]. unfold over in Hv. destruct (g x) as [tx|] eqn:Eg.
  - injection Hv as <-. assert (T : tr g x) by (apply (I4 g); [now intros k _|congruence]).
    pose proof (tr_inv _ _ _ T (nv_some _ _ _ Eg) _ Hc) as K. now apply tr_some in K.
  - destruct (rG R x) as [tx|] eqn:Ex; [|discriminate]. injection Hv as <-. destruct (sh_kids _ _ Sh x tx _ Ex Hc) as (tc & E1 & _).
    assert (K : rG R (rn R) <> None) by congruence. apply (sh_lt _ _ Sh) in K. lia.
Qed.

Lemma look_lt R h i t A : shape (rn R) (rG R) -> look R h = Some (Some (i, t), A) -> rG R i = Some t /\ i < rn R.
Proof.
  intros Sh E. unfold look in E. destruct (nth_error (rh R) h) as [[[j|] k]|]; try discriminate. destruct (rG R j) as [tj|] eqn:Ej; [|discriminate].
  injection E as <- <- <-. split; auto. apply (sh_lt _ _ Sh). congruence.
Qed.
Lemma checked_tr R G i R1 : checked R G i = Some R1 -> rG R1 = G /\ tr G i.
Proof. unfold checked. destruct (read _ G i) eqn:E; [|discriminate]. intros [= <-]. split; auto. eapply read_tr; eauto. Qed.
Lemma key_if_trees R h w ok k x R' : trees (rG R) -> key_if R h w ok k = Some (x, R') -> trees (rG R').
Proof.
  intros H E. unfold key_if in E. destruct (key_allowed R w) as [b|]; [|discriminate]. destruct (ok && b); injection E as <- <-; auto.
  unfold assign_key. destruct w as [[i t]|]; cbn [with_forest with_handle rG]; [now apply rekey_trees|].
  assert (P : inside NNull noforest (rn R + 1) (rn R + 1)) by exact (plant_inside JNull 0 (rn R + 1)).
  apply (graft_trees (rG R) (rn R + 1) (rn R) NNull noforest (rn R + 1)); auto. lia.
Qed.

Section Step.
Variable jd : judge.
Ltac got H := first
  [ apply give_G in H; now rewrite H
  | apply copy_text_G in H; now rewrite H
  | injection H as <- <-; auto ].
Ltac pay R1 Sp H := match type of H with
  | context [spend ?R ?A ?n] => destruct (spend R A n) as [R1|] eqn:Sp; [|discriminate H]; apply spend_G in Sp
  | context [scratch ?R ?n] => destruct (scratch R n) as [R1|] eqn:Sp; [|discriminate H]; apply scratch_G in Sp
  end; destruct Sp as [Sp Sn].
Ltac grd H := match type of H with (if ?b then _ else None) = _ => destruct b; [|discriminate H] end.
Lemma rstep_trees c R x R' : shape (rn R) (rG R) -> trees (rG R) -> rstep jd c R = Some (x, R') -> trees (rG R').
Proof.
  intros Sh Hg H.
  assert (As : forall R1 h w A j, look R h = Some (w, A) -> rG R1 = rG R -> rn R1 = rn R -> trees (rG (assign R1 h w j))).
  { intros R1 h w A j Lk E1 E2. apply assign_trees; [now rewrite E1|]. intros i t ->. rewrite E2. eapply look_lt; eauto. }
  assert (Si : forall R1 h w A ok j x R', look R h = Some (w, A) -> rG R1 = rG R -> rn R1 = rn R -> set_if R1 h w ok j = Some (x, R') -> trees (rG R')).
  { intros R1 h w A ok j y R2 Lk E1 E2 E. unfold set_if in E. destruct ok; injection E as <- <-; [eauto|now rewrite E1]. }
  assert (Se : forall R1 h w A ok j x R', look R h = Some (w, A) -> rG R1 = rG R -> rn R1 = rn R -> seal_if R1 h w ok j = Some (x, R') -> trees (rG R')).
  { intros R1 h w A ok j y R2 Lk E1 E2 E. unfold seal_if in E. destruct ok; injection E as <- <-; [apply sealed_trees; eauto|now rewrite E1]. }
  destruct c; cbn [rstep] in H;
  try (destruct (look R h) as [[w A]|] eqn:Lk; [|discriminate H]).
  - got H.
  - pay R1 Sp H. injection H as <- <-. cbn [rG new_value]. now rewrite Sp.
  - grd H. pay R1 Sp H. destruct (o_json jd _) as [j|] in H; injection H as <- <-; [apply sealed_trees; eauto|now rewrite Sp].
  - pay R1 Sp H. injection H as <- <-. eauto.
  - pay R1 Sp H. injection H as <- <-. eauto.
  - pay R1 Sp H. injection H as <- <-. eauto.
  - destruct k; grd H; pay R1 Sp H; eauto.
  - grd H. pay R1 Sp H. injection H as <- <-. apply sealed_trees; eauto.
  - grd H. pay R1 Sp H. injection H as <- <-. apply sealed_trees; eauto.
  - grd H. pay R1 Sp H. injection H as <- <-. apply sealed_trees; eauto.
  - grd H. pay R1 Sp H. injection H as <- <-. apply sealed_trees; eauto.
  - grd H. pay R1 Sp H. injection H as <- <-. eauto.
  - destruct k; grd H; pay R1 Sp H; (eapply key_if_trees; [|exact H]; now rewrite Sp).
  - grd H. pay R1 Sp H. eapply key_if_trees; [|exact H]; now rewrite Sp.
  - got H.
  - got H.
  - got H.
  - got H.
  - destruct fast; got H.
  - destruct w as [[i t]|]; [|got H]. destruct (ntext false (tvalue t)) as [b|]; [|got H]. destruct (o_dec jd b); [got H|discriminate].
  - destruct w as [[i t]|]; [|got H]. destruct (ntext true (tvalue t)) as [b|]; [|got H]. destruct (o_int jd b); [|discriminate].
    grd H. pay R1 Sp H. injection H as <- <-. now rewrite Sp.
  - destruct w as [[i t]|]; [|got H]. destruct (ntext true (tvalue t)) as [b|]; [|got H]. destruct (o_int jd b); [|discriminate].
    grd H. pay R1 Sp H. injection H as <- <-. now rewrite Sp.
  - destruct w as [[i t]|]; [|got H]. destruct (ntext true (tvalue t)) as [b|]; [|got H]. destruct (o_int jd b); [|discriminate].
    grd H. pay R1 Sp H. injection H as <- <-. now rewrite Sp.
  - destruct w as [[i t]|]; [|got H]. destruct (ntext true (tvalue t)) as [b|]; [|got H]. destruct (o_real jd b); [|discriminate].
    grd H. pay R1 Sp H. injection H as <- <-. now rewrite Sp.
  - destruct fast; got H.
  - destruct (match w with Some (_, t) => tkey t | None => None end) as [b|]; [|got H]. destruct (o_dec jd b); [got H|discriminate].
  - destruct w as [[i t]|]; [|got H]. destruct (reads_as R i); [got H|discriminate].
  - destruct w as [[i t]|]; grd H; [|got H]. destruct (is_cont true (tvalue t)) as [kids|]; [|got H]. grd H. got H.
  - destruct w as [[j t]|]; [|got H]. grd H. destruct (is_cont false (tvalue t)); got H.
  - destruct w as [[i t]|]; got H.
  - destruct w as [[i t]|]; [|got H]. destruct (tpar t) as [p|]; [|got H]. destruct (rG R p) as [tp|]; [|discriminate].
    destruct (split_at i _) as [[l r]|]; [got H|discriminate].
  - destruct w as [[i t]|].
    + destruct (reads_as R i) as [j|] eqn:Er; [|discriminate]. pay R1 Sp H. injection H as <- <-. cbn [new_value rG]. apply duplicate_trees. now rewrite Sp.
    + pay R1 Sp H. injection H as <- <-. now rewrite Sp.
  - destruct w as [[i t]|]; [|got H]. destruct (unhook (rG R) i) as [G|] eqn:Eu; [|discriminate]. injection H as <- <-. cbn [with_forest rG]. eapply unhook_trees; eauto.
  - destruct (look R hv) as [[wv B]|] eqn:Lv; [|discriminate]. destruct w as [[a ta]|]; [|got H]. destruct (is_cont ob (tvalue ta)); [|got H].
    destruct (look_lt _ _ _ _ _ Sh Lk) as [Ga La]. destruct wv as [[c tc]|].
    + destruct (ob && _); [got H|]. destruct fast.
      * destruct (unhook (rG R) c) as [G1|] eqn:Eu; [|discriminate]. destruct (hang _ ob a c) as [G2|] eqn:Eh; [|discriminate].
        destruct (checked R G2 a) as [R1|] eqn:Ec; [|discriminate]. injection H as <- <-. cbn [with_handle rG].
        destruct (checked_tr _ _ _ _ Ec) as [-> Ta]. eapply hang_trees; [|exact Eh|eapply hang_checked; eauto].
        assert (trees G1) by (eapply unhook_trees; eauto). destruct ob; auto. now apply rekey_trees.
      * destruct (reads_as R c) as [j|] eqn:Er; [|discriminate]. pay R1 Sp H.
        assert (K : trees (rG (duplicate R1 tc j))) by (apply duplicate_trees; now rewrite Sp).
        destruct (hang _ ob a _) as [G2|] eqn:Eh in H; [|discriminate]. injection H as <- <-. cbn [with_forest rG].
        destruct (hang_nv _ _ _ _ _ Eh) as (Na & Ks & _).
        assert (Ks' : forall y, y <> a -> nv G2 y = nv (rG (duplicate R1 tc j)) y) by (intros y Hy; rewrite Ks by auto; destruct ob; auto; apply rekey_nv).
        apply (hang_trees _ _ _ _ _) with (2 := Eh); [destruct ob; auto; now apply rekey_trees|].
        destruct (duplicate_root R1 tc j) as (v & Ev). apply (tr_in G2 (rn R1) v); [now rewrite Ks' by auto|].
        apply (duplicate_fresh R1 tc j a G2); auto. now rewrite Sn.
    + destruct (_ && _) in H; [|got H]. pay R1 Sp H. injection H as <- <-. now rewrite Sp.
  - destruct (look R hv) as [[wv B]|] eqn:Lv; [|discriminate]. destruct wv as [[b tb]|].
    + destruct fast.
      * destruct (unhook (rG R) b) as [G1|] eqn:Eu; [|discriminate]. assert (K1 : trees G1) by (eapply unhook_trees; eauto).
        destruct w as [[a ta]|]; [|injection H as <- <-; exact K1].
        destruct (hand G1 a b true) as [G2|] eqn:Eh; [|discriminate]. destruct (checked R G2 a) as [R1|] eqn:Ec; [|discriminate]. injection H as <- <-.
        cbn [with_handle rG]. destruct (checked_tr _ _ _ _ Ec) as [-> Ta]. eapply hand_trees; eauto. intros y v Hy. eapply unhook_root; eauto.
      * destruct (reads_as R b) as [j|] eqn:Er; [|discriminate]. pay R1 Sp H.
        assert (K : trees (rG (duplicate R1 tb j))) by (apply duplicate_trees; now rewrite Sp).
        destruct w as [[a ta]|]; [|injection H as <- <-; exact K].
        destruct (look_lt _ _ _ _ _ Sh Lk) as [Ga La].
        destruct (hand _ a _ false) as [G2|] eqn:Eh in H; [|discriminate]. injection H as <- <-. cbn [with_forest rG].
        destruct (hand_nv _ _ _ _ _ Eh) as (Nab & _ & Ka & _ & Ks).
        destruct (duplicate_root R1 tb j) as (v & Ev). eapply hand_trees; [exact K|exact Eh| |].
        -- intros y w Hy. eapply duplicate_kids; [|exact Hy]. now rewrite Sp, Sn.
        -- apply (tr_in G2 a v); [congruence|]. apply (duplicate_fresh R1 tb j a G2); auto. now rewrite Sn.
    + destruct fast; [got H|]. pay R1 Sp H. injection H as <- <-. now rewrite Sp.
  - destruct w as [[j t]|]; [|got H]. grd H. destruct (is_cont false (tvalue t)) as [kids|]; [|got H].
    pay R1 Sp H. destruct (nth_error kids _) as [c|]; [|injection H as <- <-; now rewrite Sp].
    destruct (unhook (rG R1) c) as [G|] eqn:Eu; [|discriminate]. injection H as <- <-. cbn [with_forest rG]. rewrite Sp in Eu. eapply unhook_trees; eauto.
  - grd H. destruct w as [[j t]|]; [|got H]. destruct (is_cont true (tvalue t)) as [kids|]; [|got H].
    grd H. pay R1 Sp H. destruct (child_by R1 key kids) as [c|]; [|injection H as <- <-; now rewrite Sp].
    destruct (unhook (rG R1) c) as [G|] eqn:Eu; [|discriminate]. injection H as <- <-. cbn [with_forest rG]. rewrite Sp in Eu. eapply unhook_trees; eauto.
Qed.
End Step.
