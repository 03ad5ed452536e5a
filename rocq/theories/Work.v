(** The loops of a call: how often each goes round, in terms of the document the call is
    given, of its text, and of the values the program has made. *)
From Verif Require Import Base Spec SpecProofs PureParse Alloc AllocProofs Mem MemProofs Dom Scene ParseTop PrintFacts CopyProofs Vocab ParseFacts Hist HistRun HistForest HistSim HistStep HistAll HistMany HistWorld HistValid HistTree HistDocs HistJudge Footprint.
From Coq Require Import ZifyN.

(** ** A document has no more values than its text has bytes *)
Lemma sum_cons a l : list_sum (a :: l) = (a + list_sum l)%nat. Proof. reflexivity. Qed.
Lemma commas_len l : (list_sum (map (@length N) l) <= length (commas l))%nat.
Proof.
  induction l as [|x r IH]; [apply Nat.le_0_l|]. cbn [map]. rewrite sum_cons. destruct r as [|y r]; [cbn; lia|].
  change (commas (x :: y :: r)) with (x ++ 44 :: commas (y :: r)). rewrite app_length. cbn [length]. lia.
Qed.
Lemma number_long t : number t -> (1 <= length t)%nat.
Proof.
  intros (sg & i & f & e & _ & Hi & _ & _ & ->). rewrite !app_length. enough (1 <= length i)%nat by lia.
  destruct Hi as [->|(d & ds & _ & _ & ->)]; cbn; lia.
Qed.
Lemma values_print : forall j, json_ok j -> (values j <= length (print j))%nat.
Proof.
  fix IH 1. intros [|b|t|b|l|l] H; cbn [values print].
  - cbn. lia.
  - destruct b; cbn; lia.
  - inversion H. now apply number_long.
  - cbn [length]. lia.
  - inversion H as [| | | |? Hl|]; subst. cbn [length]. rewrite app_length. cbn [length]. pose proof (commas_len (map print l)) as K.
    enough (list_sum (map values l) <= list_sum (map (@length N) (map print l)))%nat by lia. clear K H.
    induction l as [|x l IHl]; [apply le_n|]. inversion Hl; subst. cbn [map]. rewrite !sum_cons. pose proof (IH x ltac:(assumption)). specialize (IHl ltac:(assumption)). lia.
  - inversion H as [| | | | |? Hl]; subst. cbn [length]. rewrite app_length. cbn [length].
    match goal with |- context [commas ?m] => pose proof (commas_len m) as K; match goal with |- (S ?a <= _)%nat => enough (a <= list_sum (map (@length N) m))%nat by lia end end. clear K H.
    induction l as [|[k x] l IHl]; [apply le_n|]. inversion Hl as [|? ? [_ Hx] ?]; subst. cbn [map]. rewrite !sum_cons. cbn [snd] in Hx. pose proof (IH x Hx). specialize (IHl ltac:(assumption)).
    cbn [length]. rewrite app_length. cbn [length]. lia.
Qed.
Lemma values_text t j : json_text t j -> (values j <= length t)%nat.
Proof.
  intro J. pose proof (print_shorter t j J) as L. unfold lenN in L. enough (values j <= length (print j))%nat by lia. apply values_print.
  eapply json_text_ok; eauto.
Qed.

Lemma values_pos j : (1 <= values j)%nat. Proof. destruct j; cbn [values]; lia. Qed.

(** ** Every value of a document is a value of its own *)
Lemma sb_up G i c d : (forall x v y, nv G x = Some v -> In y (nkids v) -> exists t, G y = Some t /\ tpar t = Some x) ->
  sb G i c -> forall v, nv G d = Some v -> In c (nkids v) -> i = d \/ sb G i d.
Proof.
  intros U H v E Hc. destruct (U d v c E Hc) as (t & Et & Pt).
  destruct H as [v' c E' H'|e v' c Hs E' H']; destruct (U _ _ _ E' H') as (t' & Et' & Pt'); assert (Some (tpar t) = Some (tpar t')) as K by congruence;
    rewrite Pt, Pt' in K; injection K as <-; auto.
Qed.
Lemma sb_fork G a b : (forall x v y, nv G x = Some v -> In y (nkids v) -> exists t, G y = Some t /\ tpar t = Some x) ->
  forall c, (a = c \/ sb G a c) -> (b = c \/ sb G b c) -> a = b \/ sb G a b \/ sb G b a.
Proof.
  intros U c [->|Ha] [->|Hb]; auto. induction Ha as [v c E H|d v c Ha IH E H].
  - destruct (sb_up G b c a U Hb v E H) as [->|K]; auto.
  - destruct (sb_up G b c d U Hb v E H) as [->|K]; auto.
Qed.
Lemma nodup_app (l m : list N) : NoDup l -> NoDup m -> (forall x, In x l -> In x m -> False) -> NoDup (l ++ m).
Proof.
  induction 1 as [|x l Hx Hl IH]; cbn; intros Hm D; auto. constructor; [|apply IH; eauto]. rewrite in_app_iff. intros [K|K]; [auto|]. eapply D; eauto.
Qed.
Lemma read_nodes n G : HistTree.shape n G -> forall k i j, read k G i = Some j ->
  exists l, NoDup l /\ length l = values j /\ forall x, In x l -> G x <> None /\ (i = x \/ sb G i x).
Proof.
  intro Sh. assert (U : forall x v y, nv G x = Some v -> In y (nkids v) -> exists t, G y = Some t /\ tpar t = Some x).
  { intros x v y E H. unfold nv in E. destruct (G x) as [t|] eqn:Et; [|discriminate]. injection E as <-. eapply sh_kids; eauto. }
  induction k as [|k IH]; intros i j H; [discriminate|]. pose proof (read_tr _ _ _ _ H) as T. cbn [read] in H.
  destruct (G i) as [t|] eqn:E; [|discriminate]. pose proof (nv_some _ _ _ E) as Ev. pose proof (sh_nd _ _ Sh i t E) as ND.
  assert (One : forall j', j = j' -> values j' = 1%nat -> exists l, NoDup l /\ length l = values j /\ forall x, In x l -> G x <> None /\ (i = x \/ sb G i x)).
  { intros j' -> V. exists [i]. split; [repeat constructor; easy|]. split; [now rewrite V|]. intros x [<-|[]]. split; [congruence|auto]. }
  destruct (tvalue t) as [| | | |ob kids] eqn:Et; try (injection H as H; eapply One; [symmetry; exact H|reflexivity]). clear One.
  destruct (mapo _ kids) as [items|] eqn:Em; [|discriminate]. injection H as <-. cbn [nkids] in ND.
  assert (L : exists l, NoDup l /\ length l = list_sum (map (fun kj => values (snd kj)) items) /\ forall x, In x l -> exists c, In c kids /\ G x <> None /\ (c = x \/ sb G c x)).
  { apply mapo_in in Em. assert (Hk : forall c, In c kids -> In c (nkids (NCont ob kids))) by auto.
    clear Et. assert (Hk' : forall c, In c kids -> sb G i c) by (intros c Hc; eapply sb_kid; [exact Ev|now apply Hk]).
    assert (Hp : forall c c', In c kids -> sb G c c' -> In c' kids -> False).
    { intros c c' Hc Hs Hc'. destruct (sb_up G c c' i U Hs _ Ev (Hk c' Hc')) as [->|K].
      - apply (tr_acyclic G i T). now apply Hk'.
      - apply (tr_acyclic G i T). apply (sb_front G i _ c i Ev (Hk c Hc) K). }
    clear Hk Hk' Ev. induction Em as [|c [kk x] kids items Hx _ IHl]; [exists []; split; [constructor|]; split; [reflexivity|easy]|].
    inversion ND as [|? ? Hn ND']; subst. destruct IHl as (l & Nl & Ll & Il); auto. { intros; eapply (Hp c0 c'); cbn; eauto. }
    destruct (G c) as [tc|] eqn:Ec; [|discriminate]. destruct (read k G c) as [y|] eqn:Er; [|discriminate]. injection Hx as <- <-.
    destruct (IH c y Er) as (m & Nm & Lm & Im). exists (m ++ l). split; [|split].
    - apply nodup_app; auto. intros z Hm Hl. destruct (Im z Hm) as (_ & K1). destruct (Il z Hl) as (c' & Hc' & _ & K2).
      destruct (sb_fork G c c' U z K1 K2) as [->|[K|K]]; auto; [apply (Hp c c')|apply (Hp c' c)]; cbn; auto.
    - rewrite app_length, Lm, Ll. reflexivity.
    - intros z Hz. apply in_app_iff in Hz as [Hz|Hz]; [exists c; split; [now left|now apply Im]|]. destruct (Il z Hz) as (c' & Hc' & K). exists c'. split; [now right|exact K]. }
  destruct L as (l & Nl & Ll & Il). exists (i :: l). split; [|split].
  - constructor; auto. intro Hi. destruct (Il i Hi) as (c & Hc & _ & [->|K]); apply (tr_acyclic G i T); [eapply sb_kid; eauto|].
    eapply sb_front; eauto.
  - cbn [length]. rewrite Ll. unfold container. destruct ob; cbn [values]; rewrite map_map; f_equal; f_equal; now apply map_ext.
  - intros x [<-|Hx]; [split; [congruence|auto]|]. destruct (Il x Hx) as (c & Hc & K & [->|K']); split; auto; right; [eapply sb_kid; eauto|].
    eapply sb_front; eauto.
Qed.
Lemma read_few R i j : docs_ok R -> reads_as R i = Some j -> (values j <= N.to_nat (rn R))%nat.
Proof.
  intros D H. destruct (read_nodes _ _ (d_shape _ D) _ _ _ H) as (l & Nl & <- & K). apply short; auto. intros x Hx. apply (sh_lt _ _ (d_shape _ D)). now apply K.
Qed.
Lemma members_few R h : docs_ok R -> (members R h <= N.to_nat (rn R))%nat.
Proof.
  intro D. unfold members. destruct (look R h) as [[[[i t]|] A]|] eqn:L; try apply Nat.le_0_l.
  apply (look_lt _ _ _ _ _ (d_shape _ D)) in L as [L _]. apply short; [eapply sh_nd; [exact (d_shape _ D)|exact L]|]. intros x Hx. apply (sh_lt _ _ (d_shape _ D)).
  destruct (sh_kids _ _ (d_shape _ D) i t x L Hx) as (tc & E & _). congruence.
Qed.
Lemma inside_few R h : docs_ok R -> (inside_of R h <= N.to_nat (rn R))%nat.
Proof.
  intro D. unfold inside_of. destruct (look R h) as [[[[i t]|] A]|] eqn:L; try apply Nat.le_0_l. destruct (reads_as R i) eqn:E; [|apply Nat.le_0_l]. eapply read_few; eauto.
Qed.
Lemma passes_few c R : docs_ok R -> (passes c R <= 3 * N.to_nat (rn R))%nat.
Proof.
  intro D. destruct c; cbn [passes]; try lia; repeat match goal with |- context [inside_of R ?h] => pose proof (inside_few R h D); generalize dependent (inside_of R h); intros
    | |- context [members R ?h] => pose proof (members_few R h D); generalize dependent (members R h); intros | |- context [if ?b then _ else _] => destruct b end; lia.
Qed.

(** ** Every value was paid for *)
Lemma before0_len t : (length (before0 t) <= length t)%nat.
Proof. induction t as [|c t IH]; cbn [before0]; [apply le_n|]. destruct (c =? 0); cbn [length]; lia. Qed.
Definition total (R : rst) : N := fold_right N.add 0 (ru R).
Definition paid (R R' : rst) : Prop := rn R <= rn R' /\ 72 * rn R' + total R <= 72 * rn R + total R'.

Lemma plant_count : forall j i n, let '(_, _, n') := plant i j n in n' + 1 = n + N.of_nat (values j).
Proof.
  assert (L : forall items i n, Forall (fun kj => forall i n, let '(_, _, n') := plant i (snd kj) n in n' + 1 = n + N.of_nat (values (snd kj))) items ->
    let '(_, _, n') := plantL i items n in n' = n + N.of_nat (list_sum (map (fun kj : option bytes * json => values (snd kj)) items))).
  { induction items as [|[k x] r IH]; intros i n H; cbn [plantL map]; [cbn; lia|]. rewrite sum_cons. inversion H as [|? ? Hx Hr]; subst. cbn [fst snd] in *.
    specialize (Hx n (n + 1)). destruct (plant n x (n + 1)) as [[v h1] n1]. specialize (IH i n1 Hr). destruct (plantL i r n1) as [[ks h2] n2]. lia. }
  fix IH 1. intros [|b|t|b|l|l] i n; try (cbn; lia).
  - rewrite plant_arr. specialize (L (map (fun x => (None, x)) l) i n). destruct (plantL i _ n) as [[ks h] n']. cbn [values]. rewrite map_map in L. cbn [snd] in L.
    rewrite L; [change (fun x => values x) with values; lia|]. apply Forall_map. cbn [snd]. clear L. induction l as [|x l IHl]; [constructor|constructor; [exact (IH x)|exact IHl]].
  - rewrite plant_obj. specialize (L (map (fun kx => (Some (fst kx), snd kx)) l) i n). destruct (plantL i _ n) as [[ks h] n']. cbn [values]. rewrite map_map in L. cbn [snd] in L.
    rewrite L; [|apply Forall_map; cbn [snd]; clear L; induction l as [|[k x] l IHl]; [constructor|constructor; [exact (IH x)|exact IHl]]].
    rewrite (map_ext (fun kv : bytes * json => let '(_, x) := kv in values x) (fun x => values (snd x))); [lia|now intros []].
Qed.

Lemma jcost_values : forall j, 72 * N.of_nat (values j) <= 72 + jcost j.
Proof.
  fix IH 1. intros [|b|t|b|l|l]; cbn [values jcost]; try (cbn; lia).
  - induction l as [|x l IHl]; [cbn; lia|]. cbn [map fold_right]. rewrite sum_cons. pose proof (IH x). lia.
  - induction l as [|[k x] l IHl]; [cbn; lia|]. cbn [map fold_right fst snd]. rewrite sum_cons. pose proof (IH x). lia.
Qed.
Lemma total_setn l : forall k u n, nth_error l k = Some u -> fold_right N.add 0 (setn k (u + n) l) = fold_right N.add 0 l + n.
Proof. induction l as [|x l IH]; intros [|k] u n H; cbn [setn fold_right nth_error] in *; try discriminate; [injection H as ->; lia|rewrite (IH k u n H); lia]. Qed.
Lemma spend_paid R k n R1 : spend R k n = Some R1 -> rn R1 = rn R /\ total R1 = total R + n.
Proof.
  unfold spend. destruct (nth_error (ru R) k) as [u|] eqn:E; [|discriminate]. destruct (_ <=? _); [|discriminate]. intro H. injection H as <-. split; [reflexivity|].
  unfold total. cbn [ru]. now apply total_setn.
Qed.
Lemma scratch_paid R n R1 : ru R <> [] -> scratch R n = Some R1 -> rn R1 = rn R /\ total R + n <= total R1.
Proof.
  unfold scratch, total. intros H E. destruct (forallb _ _); [|discriminate]. injection E as <-. split; [reflexivity|]. cbn [ru].
  assert (K : forall l, fold_right N.add 0 l <= fold_right N.add 0 (map (fun u => u + n) l)).
  { induction l as [|x l IH]; cbn [map fold_right]; [apply N.le_refl|lia]. }
  destruct (ru R) as [|u l]; [now elim H|]. cbn [map fold_right]. specialize (K l). lia.
Qed.
Lemma assign_paid R h w j : rn R <= rn (assign R h w j) <= rn R + N.of_nat (values j) /\ total (assign R h w j) = total R.
Proof.
  unfold assign. destruct w as [[i t]|].
  - pose proof (plant_count j i (rn R)) as K. destruct (plant i j (rn R)) as [[v g] n']. cbn [rn]. pose proof (values_pos j). split; [lia|reflexivity].
  - pose proof (plant_count j (rn R) (rn R + 1)) as K. destruct (plant (rn R) j (rn R + 1)) as [[v g] n']. cbn [rn with_handle]. pose proof (values_pos j). split; [lia|reflexivity].
Qed.
Lemma duplicate_paid R t j : rn R <= rn (duplicate R t j) <= rn R + N.of_nat (values j) /\ total (duplicate R t j) = total R.
Proof.
  unfold duplicate. pose proof (plant_count j (rn R) (rn R + 1)) as K. destruct (plant (rn R) j (rn R + 1)) as [[v g] n']. cbn [rn]. pose proof (values_pos j). split; [lia|reflexivity].
Qed.
Lemma sealed_paid R0 w R : rn (sealed R0 w R) = rn R /\ total (sealed R0 w R) = total R. Proof. split; reflexivity. Qed.
Lemma key_paid R h w ok k x R' : key_if R h w ok k = Some (x, R') -> rn R <= rn R' <= rn R + 1 /\ total R' = total R.
Proof.
  unfold key_if. destruct (key_allowed R w) as [b|]; [|discriminate]. destruct (ok && b); intro H; injection H as <- <-; [|split; [lia|reflexivity]].
  unfold assign_key. destruct w as [[i t]|]; split; try reflexivity; cbn; lia.
Qed.
Ltac paying :=
  repeat match goal with
  | H : spend _ _ _ = Some _ |- _ => apply spend_paid in H; destruct H
  | H : scratch _ _ = Some _ |- _ => apply scratch_paid in H; [destruct H|eauto; fail]
  | H : key_if _ _ _ _ _ = Some _ |- _ => apply key_paid in H; destruct H
  | |- context [assign ?R ?h ?w ?j] => pose proof (assign_paid R h w j); generalize dependent (assign R h w j); intros
  | |- context [duplicate ?R ?t ?j] => pose proof (duplicate_paid R t j); generalize dependent (duplicate R t j); intros
  end.
Lemma step_paid jd c R x R' : correct jd -> (forall h w A, look R h = Some (w, A) -> ru R <> []) -> rstep jd c R = Some (x, R') -> paid R R'.
Proof.
  intros J Hr St. unfold paid.
  assert (T : forall t j, o_json jd t = Some j -> ~ In 0 t -> (values j <= length t)%nat).
  { intros t j H H0. apply (jd_json _ J) in H; auto. now apply values_text. }
  destruct c; cbn [rstep] in St.
  all: unfold set_if, seal_if, give, copy_text, checked in St.
  all: repeat match type of St with
    | (let _ := _ in _) = _ => cbv zeta in St
    | match ?k with _ => _ end = _ => let E := fresh "E" in destruct k eqn:E; try discriminate St
    | key_if _ _ _ _ _ = _ => fail 1
    end.
  all: (try (injection St as <- <-)); paying.
  all: repeat match goal with H : _ /\ _ |- _ => destruct H end.
  all: unfold total, sealed, with_forest, with_handle, new_value, icost in *; cbn [rn ru values container] in *.
  all: try match goal with H : reads_as _ _ = Some ?j |- _ => pose proof (jcost_values j) end; cbn [snd] in *.
  all: try solve [split; lia].
  all: try (match goal with b : bool |- _ => destruct b end; cbn [values map list_sum fold_right] in *; solve [split; lia]).
  - rewrite fold_right_app. cbn [fold_right]. rewrite N.add_0_r. lia.
  - assert (V : (values j <= length t)%nat).
    { apply andb_true_iff in E1 as [E1 _]. apply andb_true_iff in E1 as [E1 _]. destruct k.
      - apply (T _ _ E3). now apply ok_c_no0.
      - apply (T _ _ E3). now apply ok_c_no0.
      - pose proof (T _ _ E3 (before0_no0 t)). pose proof (before0_len t). lia. }
    unfold lenN in *. assert (72 * N.of_nat (length t) <= (match k with PFast => 72 * (N.of_nat (length t) + 2) | _ => len_cost (N.of_nat (length t)) end)) by (unfold len_cost; destruct k; lia).
    lia.
  - assert (V : values (container ob []) = 1%nat) by (now destruct ob). rewrite V in *. split; lia.
  - match goal with H : match read ?a ?b ?c with _ => _ end = Some _ |- _ => destruct (read a b c); [|discriminate]; injection H as <- end. cbn [rn ru]. split; lia.
  - match goal with H : match read ?a ?b ?c with _ => _ end = Some _ |- _ => destruct (read a b c); [|discriminate]; injection H as <- end. cbn [rn ru]. split; lia.
Qed.

(** ** Programs *)
Lemma sim_ru (VV : vols) R E nm F s h w A : sim R E nm F s -> look R h = Some (w, A) -> ru R <> [].
Proof.
  intros S L. destruct (look_handle _ _ _ _ _ _ _ _ S L) as (v & A' & _ & HA & _). intro K. pose proof (sm_la _ _ _ _ _ S) as La. rewrite K in La.
  destruct (ea E); [destruct A; discriminate|discriminate].
Qed.
Lemma rrun_app jd cs : forall cs' R rs R', rrun jd (cs ++ cs') R = Some (rs, R') ->
  exists r1 R1 r2, rrun jd cs R = Some (r1, R1) /\ rrun jd cs' R1 = Some (r2, R') /\ rs = r1 ++ r2.
Proof.
  induction cs as [|c cs IH]; intros cs' R rs R' H; cbn [rrun app] in *; [eauto 6|].
  destruct (rstep jd c R) as [[x R1]|]; [|discriminate]. destruct (rrun jd (cs ++ cs') R1) as [[xs R2]|] eqn:E; [|discriminate]. injection H as <- <-.
  destruct (IH _ _ _ _ E) as (r1 & Ra & r2 & Ea & Eb & ->). rewrite Ea. exists (x :: r1), Ra, r2. auto.
Qed.
Lemma program_paid jd : correct jd -> forall cs rs R, rrun jd cs rstart = Some (rs, R) -> 72 * rn R <= total R.
Proof.
  intros J cs. induction cs as [|c cs IH] using rev_ind; intros rs R H; [injection H as <- <-; cbn; lia|].
  destruct (rrun_app _ _ _ _ _ _ H) as (r1 & R1 & r2 & E1 & E2 & _). specialize (IH _ _ E1). cbn [rrun] in E2. destruct (rstep jd c R1) as [[x R2]|] eqn:E; [|discriminate].
  injection E2 as _ <-. destruct (program_most jd cs r1 R1 J E1 _ (le_n _)) as (En & s & _ & nm & F & S).
  destruct (step_paid jd c R1 x R2 J) as (K1 & K2); auto; [|lia]. intros h w A. eapply sim_ru; eauto.
Qed.
Lemma most_max jd cs : forall R rs R', rrun jd cs R = Some (rs, R') -> forall b,
  (forall cs1 c cs2 r1 R1, cs = cs1 ++ c :: cs2 -> rrun jd cs1 R = Some (r1, R1) -> (passes c R1 <= b)%nat) -> (most jd cs R <= b)%nat.
Proof.
  induction cs as [|c cs IH]; intros R rs R' H b K; cbn [most rrun] in *; [apply Nat.le_0_l|].
  destruct (rstep jd c R) as [[x R1]|] eqn:E; [|discriminate]. destruct (rrun jd cs R1) as [[xs R2]|] eqn:E2; [|discriminate].
  apply Nat.max_lub; [apply (K [] c cs [] R); auto|]. apply (IH _ _ _ E2). intros cs1 c1 cs2 r1 Ra -> Hr. apply (K (c :: cs1) c1 cs2 (x :: r1) Ra); auto. cbn [rrun]. now rewrite E, Hr.
Qed.
Lemma run_paid jd : correct jd -> forall cs rs R, rrun jd cs rstart = Some (rs, R) -> forall cs' rs' R', rrun jd cs' R = Some (rs', R') -> paid R R'.
Proof.
  intros J cs rs R H cs'. induction cs' as [|c cs' IH] using rev_ind; intros rs' R' H'; [injection H' as <- <-; split; lia|].
  destruct (rrun_app _ _ _ _ _ _ H') as (r1 & R1 & r2 & E1 & E2 & _). destruct (IH _ _ E1) as (K1 & K2). cbn [rrun] in E2. destruct (rstep jd c R1) as [[x R2]|] eqn:E; [|discriminate].
  injection E2 as _ <-. assert (H1 : rrun jd (cs ++ cs') rstart = Some (rs ++ r1, R1)).
  { clear - H E1. revert rs H. generalize rstart. induction cs as [|c cs IH]; intros R0 rs H; cbn [rrun app] in *; [injection H as <- <-; exact E1|].
    destruct (rstep jd c R0) as [[x Ra]|]; [|discriminate]. destruct (rrun jd cs Ra) as [[xs Rb]|] eqn:Eb; [|discriminate]. injection H as <- <-. now rewrite (IH _ _ Eb). }
  destruct (program_most jd _ _ R1 J H1 _ (le_n _)) as (En & s & _ & nm & F & S).
  destruct (step_paid jd c R1 x R2 J) as (K3 & K4); auto; [|split; lia]. intros h w A. eapply sim_ru; eauto.
Qed.
(** No loop of a program goes round more often than three times for every value it made. *)
Theorem work_values jd cs rs R : correct jd -> rrun jd cs rstart = Some (rs, R) -> (most jd cs rstart <= 3 * N.to_nat (rn R))%nat.
Proof.
  intros J H. apply (most_max jd cs rstart rs R H). intros cs1 c cs2 r1 R1 -> H1.
  pose proof (passes_few c R1 (docs_program jd _ _ _ J H1)) as P. destruct (rrun_app _ _ _ _ _ _ H) as (r1' & R1' & r2 & E1 & E2 & _).
  assert (R1' = R1) by congruence. subst. destruct (run_paid jd J _ _ _ E1 _ _ _ E2) as (K & _). lia.
Qed.
(** ... or for every 24 bytes the program asked for. *)
Theorem work_memory jd cs rs R : correct jd -> rrun jd cs rstart = Some (rs, R) ->
  forall fuel, total R <= 24 * N.of_nat fuel -> exists E s, crun fuel cs estart init = Ok ((rs, E), s) /\ represents R E s.
Proof.
  intros J H fuel Hf. apply (program_most jd); auto. pose proof (work_values jd cs rs R J H). pose proof (program_paid jd J cs rs R H). lia.
Qed.
Theorem work_document t j : json_text t j -> 77 * lenN t + 1213 <= two30 -> forall fuel, (2 * length t <= fuel)%nat ->
  exists E s, crun fuel [CNewAllocator; CNewValue 0; CParse PCopy 0 t []; CStringify 0] estart init =
    Ok (([Arena 0; Value (Some 0%nat); Bool true; Text (Some (print j))], E), s).
Proof.
  intros P Hc fuel Hf. assert (Hc' : 16 + len_cost (lenN t) + print_cost (lenN t) <= two30) by (unfold len_cost, print_cost; lia).
  destruct (document_run the_judge t j judge_correct P Hc') as (R & u & Q & _). pose proof Q as Q'.
  destruct (program_most the_judge _ _ _ judge_correct Q fuel) as (E & s & Ec & _); [|eauto].
  etransitivity; [|exact Hf]. apply (most_max _ _ _ _ _ Q). intros cs1 c cs2 r1 R1 Es H1.
  destruct c; try (cbn [passes]; lia); try (exfalso; clear - Es; repeat (destruct cs1 as [|? cs1]; try discriminate); fail).
  assert (Ec : h = 0%nat /\ cs1 = [CNewAllocator; CNewValue 0; CParse PCopy 0 t []] /\ cs2 = []).
  { clear - Es. unfold document in Es. repeat (destruct cs1 as [|? cs1]; try discriminate; injection Es as ? Es; subst); auto. }
  destruct Ec as (-> & -> & ->). change (document t) with ([CNewAllocator; CNewValue 0; CParse PCopy 0 t []] ++ [CStringify 0]) in Q.
  destruct (rrun_app _ _ _ _ _ _ Q) as (r1' & R1' & r2 & E1 & E2 & Er). assert (r1' = r1 /\ R1' = R1) as [-> ->] by (split; congruence). clear H1.
  cbn [passes]. unfold inside_of. pose proof (docs_program _ _ _ _ judge_correct E1) as D.
  cbn [rrun rstep] in E2. destruct (look R1 0) as [[[[i tn]|] A]|] eqn:L; try lia. destruct (reads_as R1 i) as [j'|] eqn:Rd; [|lia].
  destruct (docs_read R1 i D) as (j2 & Rd2 & Ok2). { apply (look_lt _ _ _ _ _ (d_shape _ D)) in L as [L _]. congruence. } assert (j2 = j') by congruence. subst j2.
  assert (V : print j' = print j).
  { unfold copy_text in E2. destruct (spend R1 A _) as [R2|]; [|discriminate]. injection E2 as <- _. apply (f_equal (fun l => last l Done)) in Er. rewrite last_last in Er. cbn [last option_map] in Er.
    injection Er as ->. symmetry. apply before0_id. eapply json_text_no0. now apply print_text. }
  pose proof (values_print j' Ok2) as K. rewrite V in K. pose proof (print_shorter t j P) as L'. unfold lenN in L'. lia.
Qed.
