(** The caches of the beta header along a program: what the reference semantics (BetaHist.v)
    says the getters remember is what they remember. *)
From Verif Require Import Base Spec Lex LexProofs Alloc AllocProofs Mem MemProofs Api PureParse Dom Effect Steps StringifyProofs
  ParseProofs ParseTop CacheProofs SetProofs Update KeyProofs GetProofs CopyProofs LinkProofs MoveProofs IntProofs EscProofs Start Vocab
  ParseFacts PrintFacts Scene ReadFacts SetFacts Double DoubleProofs DoubleFacts ParseEnds Hist HistRun HistForest HistSim HistStep HistAll Beta BetaProofs BetaCalls BetaHist BetaStep.

(** ** A call with and without its caches *)
Definition traced {X} (m : M X) (mb : M (X * bmem)) (P : X -> bmem -> Prop) : Prop :=
  forall s x s', m s = Ok (x, s') -> exists B', mb s = Ok ((x, B'), s') /\ P x B'.
Lemma traced_bind {X Y} (m : M Y) (k : Y -> M X) kb P : (forall a, traced (k a) (kb a) P) -> traced (bind m k) (bind m kb) P.
Proof. intros H s x s' E. apply bind_inv in E as (a & s1 & E1 & E2). destruct (H a s1 x s' E2) as (B' & K). exists B'. unfold bind. now rewrite E1. Qed.
Lemma traced_hof {X} E h (k : addr -> M X) kb P : (forall v, nth_error (eh E) h = Some v -> traced (k v) (kb v) P) -> traced (bind (hof E h) k) (bind (hof E h) kb) P.
Proof.
  intros H s x s' E0. apply bind_inv in E0 as (a & s1 & E1 & E2). unfold hof in E1. destruct (nth_error (eh E) h) as [v|] eqn:Ev; [|discriminate].
  injection E1 as <- <-. destruct (H v eq_refl s x s' E2) as (B' & K). exists B'. unfold bind, hof. now rewrite Ev.
Qed.
Lemma traced_with {X} (m : M X) (f : X -> bmem) : traced m (r <- m ;; ret (r, f r)) (fun x B' => B' = f x).
Proof. intros s x s' E. exists (f x). unfold bind. now rewrite E. Qed.
Lemma traced_map {X Y} (m : M X) mb (g : X -> Y) (P : X -> bmem -> Prop) (Q : Y -> bmem -> Prop) : traced m mb P -> (forall x B', P x B' -> Q (g x) B') ->
  traced (x <- m ;; ret (g x)) (xb <- mb ;; ret (g (fst xb), snd xb)) Q.
Proof.
  intros H HQ s y s' E. apply bind_inv in E as (x & s1 & E1 & E2). injection E2 as <- <-. destruct (H s x s1 E1) as (B' & K & Px).
  exists B'. unfold bind. rewrite K. split; [reflexivity|]. auto.
Qed.
Lemma traced_lend {X} t (m : addr -> M X) mb P : (forall p, traced (m p) (mb p) P) -> traced (lend t m) (lend t mb) P.
Proof.
  intro H. unfold lend. apply traced_bind. intros p s x s' E. apply bind_inv in E as (r & s1 & E1 & E). apply bind_inv in E as (u & s2 & E2 & E).
  injection E as <- <-. destruct (H p s r s1 E1) as (B' & K & Pr). exists B'. split; auto. unfold bind. now rewrite K, E2.
Qed.
Lemma traced_keep {X} t (m : addr -> M X) mb P : (forall p, traced (m p) (mb p) P) -> traced (keep t m) (keep t mb) P.
Proof. intro H. unfold keep. now apply traced_bind. Qed.
Lemma traced_pass {X} kept t (m : addr -> M X) mb P : (forall p, traced (m p) (mb p) P) -> traced (pass kept t m) (pass kept t mb) P.
Proof. destruct kept; [apply traced_keep|apply traced_lend]. Qed.
Lemma traced_wp {X} (m : M X) mb P s Q : traced m mb P -> wp m s Q -> wp mb s (fun xb s' => Q (fst xb) s' /\ P (fst xb) (snd xb)).
Proof. intros T (x & s' & E & HQ). destruct (T s x s' E) as (B' & K & Px). exists (x, B'), s'. auto. Qed.

(** The cache words after a call: those of a new value object are cleared, those of the
    value objects in [clears] are, the others stay. *)
Definition wiped (E : env) (B : bmem) (l : list nat) : bmem :=
  fold_left (fun B h => match nth_error (eh E) h with Some v => z_ValueInitCache B v | None => B end) l B.
Definition shaped (c : call) (E : env) (B : bmem) (xe : answer * env) (B' : bmem) : Prop :=
  (exists v, xe = (Value (Some (length (eh E))), mkE (eh E ++ [v]) (ea E)) /\ B' = z_ValueInitCache B v) \/
  ((forall n, fst xe <> Value (Some n)) /\ eh (snd xe) = eh E /\ B' = wiped E B (clears c (fst xe))).
Lemma shaped_value c E B (m : M (option addr)) mb : (forall x, clears c x = []) -> traced m mb (fun r B' => B' = born B r) ->
  traced (r <- m ;; ret (out_value E r)) (out_valueB E mb) (shaped c E B).
Proof.
  intros Hc T. unfold out_valueB. eapply (traced_map m mb (out_value E)); [exact T|]. intros [v|] B' ->; [left; exists v; auto|].
  right. cbn. rewrite Hc. repeat split; auto. discriminate.
Qed.
Lemma shaped_env {X} c E B (f : X -> answer) (m : M X) mb : (forall x n, f x <> Value (Some n)) ->
  traced m mb (fun x B' => B' = wiped E B (clears c (f x))) -> traced (with_env E f m) (with_envB E f mb) (shaped c E B).
Proof.
  intros Hf T. unfold with_env, with_envB.
  intros s y s' E0. apply bind_inv in E0 as (x & s1 & E1 & E2). injection E2 as <- <-. destruct (T s x s1 E1) as (B' & K & ->).
  eexists. unfold bind. rewrite K. split; [reflexivity|]. right. cbn [fst snd]. auto.
Qed.
Lemma shaped_same c E B (m : M (answer * env)) : (forall s xe s', m s = Ok (xe, s') -> (forall n, fst xe <> Value (Some n)) /\ eh (snd xe) = eh E /\ clears c (fst xe) = []) ->
  traced m (same B m) (shaped c E B).
Proof. intros H s xe s' E0. exists B. unfold same, bind. rewrite E0. split; auto. right. destruct (H s xe s' E0) as (H1 & H2 & H3). rewrite H3. auto. Qed.
Lemma out_text_is o s x s' : out_text o s = Ok (x, s') -> exists t, x = Text t.
Proof.
  destruct o as [w|]; cbn; [|intros [= <- _]; eauto]. intro E. apply bind_inv in E as (b & s1 & _ & E). injection E as <- _. eauto.
Qed.
Lemma out_view_is o s x s' : out_view o s = Ok (x, s') -> exists t, x = Text t.
Proof.
  destruct o as [[w n]|]; cbn; [|intros [= <- _]; eauto]. intro E. apply bind_inv in E as (b & s1 & _ & E). injection E as <- _. eauto.
Qed.
Lemma hof_env {X} E h (f : X -> answer) m s xe s' : (v <- hof E h ;; with_env E f (m v)) s = Ok (xe, s') -> exists x v s1 s2, m v s1 = Ok (x, s2) /\ xe = (f x, E).
Proof.
  intro E0. apply bind_inv in E0 as (v & s1 & _ & E0). unfold with_env in E0. apply bind_inv in E0 as (x & s2 & E1 & E0). injection E0 as <- _. eauto 8.
Qed.
(** The calls that may be answered from a cache. *)
Definition caching (c : call) : bool :=
  match c with CGetText _ false _ | CGetUnEscape _ | CGetDouble _ | CGetKey false _ | CGetUnEscapeKey _ => true | _ => false end.
Lemma wiped_one E B h v : nth_error (eh E) h = Some v -> wiped E B [h] = z_ValueInitCache B v.
Proof. intro H. cbn. now rewrite H. Qed.
Lemma wiped_two E B h v h' v' : nth_error (eh E) h = Some v -> nth_error (eh E) h' = Some v' -> wiped E B [h; h'] = z_ValueInitCache (z_ValueInitCache B v) v'.
Proof. intros H H'. cbn. now rewrite H, H'. Qed.
Lemma traced_weaken {X} (m : M X) mb (P Q : X -> bmem -> Prop) : traced m mb P -> (forall x B', P x B' -> Q x B') -> traced m mb Q.
Proof. intros H K s x s' E. destruct (H s x s' E) as (B' & K1 & K2). eauto. Qed.
Lemma tr_clearing {X} c E B h v (m : M X) (f : X -> answer) : nth_error (eh E) h = Some v -> (forall x, clears c (f x) = [h]) ->
  traced m (clearing B v m) (fun x B' => B' = wiped E B (clears c (f x))).
Proof. intros Hv Hc. eapply traced_weaken; [apply traced_with|]. cbv beta. intros x B' ->. now rewrite Hc, (wiped_one E B h v Hv). Qed.
Lemma tr_if_set c E B h v (m : M bool) : nth_error (eh E) h = Some v -> clears c (Bool true) = [h] -> clears c (Bool false) = [] ->
  traced m (if_set B v m) (fun x B' => B' = wiped E B (clears c (Bool x))).
Proof. intros Hv H1 H2. eapply traced_weaken; [apply traced_with|]. cbv beta. intros [] B' ->; [now rewrite H1, (wiped_one E B h v Hv)|now rewrite H2]. Qed.
Lemma tr_same c E B (m : M bool) : (forall b, clears c (Bool b) = []) -> traced m (same B m) (fun x B' => B' = wiped E B (clears c (Bool x))).
Proof. intros H. eapply traced_weaken; [apply traced_with|]. cbv beta. intros x B' ->. now rewrite H. Qed.
Theorem bstep_zstep jd c R : caching c = false -> zrstep jd c R <> None ->
  forall fuel E B, traced (zstep fuel c E) (bstep fuel c E B) (shaped c E B).
Proof.
  intros Nc Ns fuel E B. assert (NB : forall x n, Bool x <> Value (Some n)) by discriminate.
  destruct c; try discriminate Nc; try (now elim Ns); cbn [zstep bstep]; try (cbn [caching] in Nc; try destruct fast; try discriminate Nc).
  1:{ apply shaped_same. intros s xe s' E0. apply bind_inv in E0 as (A' & s1 & _ & E0). injection E0 as <- _. repeat split; auto. discriminate. }
  1:{ apply traced_bind. intros a s xe s' E0. apply bind_inv in E0 as (v & s1 & E1 & E0). injection E0 as <- <-. exists (z_ValueInitCache B v).
      unfold z_ValueNew, bind. rewrite E1. split; [reflexivity|]. left. exists v. auto. }
  all: try (apply shaped_same; intros s xe s' E0; cbn [cstep] in E0; apply hof_env in E0 as (x & v & s1 & s2 & E1 & ->); cbn [fst snd];
    first [repeat split; auto; discriminate
          |apply bind_inv in E1 as (y & s3 & _ & E1); first [apply out_view_is in E1 as (t0 & ->)|apply out_text_is in E1 as (t0 & ->)]; repeat split; auto; discriminate]).
  all: apply traced_hof; intros v Hv.
  - apply shaped_env; auto. apply traced_keep. intro p. destruct k; eapply (tr_clearing _ _ _ h); eauto.
  - apply shaped_env; [discriminate|]. eapply (tr_clearing _ _ _ h); eauto.
  - apply shaped_env; [discriminate|]. eapply (tr_clearing _ _ _ h); eauto.
  - apply shaped_env; [discriminate|]. destruct ob; eapply (tr_clearing _ _ _ h); eauto.
  - apply shaped_env; auto. apply traced_pass. intro p. destruct num, k; eapply (tr_if_set _ _ _ h); eauto.
  - apply shaped_env; auto. eapply (tr_if_set _ _ _ h); eauto.
  - apply shaped_env; auto. apply traced_pass. intro p. destruct k; eapply (tr_if_set _ _ _ h); eauto.
  - apply shaped_value; [auto|]. destruct len; apply traced_lend; intro p; apply traced_with.
  - apply shaped_value; [auto|]. apply traced_with.
  - apply shaped_value; [auto|]. apply traced_with.
  - apply shaped_value; [auto|]. apply traced_with.
  - apply shaped_value; [auto|]. apply traced_with.
  - apply traced_hof. intros vv Hvv. apply shaped_env; auto. destruct ob; eapply (tr_if_set _ _ _ hv); eauto.
  - apply traced_hof. intros vv Hvv. apply shaped_env; auto. destruct ob; apply tr_same; reflexivity.
  - apply traced_hof. intros vv Hvv. apply shaped_env; auto. eapply traced_weaken; [apply traced_with|]. cbv beta. intros [] B' ->; [|reflexivity].
    cbn [clears]. now rewrite (wiped_two E B h v hv vv).
  - apply traced_hof. intros vv Hvv. apply shaped_env; auto. eapply (tr_if_set _ _ _ h); eauto.
  - apply shaped_env; auto. apply tr_same; reflexivity.
  - apply shaped_env; auto. apply tr_same; reflexivity.
Qed.

(** ** What is remembered *)
Section Remember.
Context {VV : vols}.
Definition kept_text (s : st) (p : addr) (t : bytes) : Prop := ~ In 0 t /\ safetext s p (t ++ [0]).
Definition texted (s : st) (w : word) (o : option bytes) : Prop :=
  match o with None => w = Null | Some t => exists p, w = At p /\ kept_text s p t end.
Definition alted (s : st) (a : alt) (k : kalt) : Prop :=
  match k with
  | KNone => a = ANull
  | KText t => exists p, a = AText p /\ kept_text s p t
  | KReal d => exists p, a = ANum p d
  end.
Record remembered (s : st) (c : cache) (k : kache) : Prop := {
  rm_str : texted s (cStr c) (kStr k);
  rm_alt : alted s (cAlt c) (kAlt k);
  rm_key : texted s (cKey c) (kKey k);
  rm_un : texted s (cUn c) (kUn k)
}.
Definition caches (E : env) (s : st) (B : bmem) (K : list kache) : Prop :=
  length K = length (eh E) /\ forall h v k, nth_error (eh E) h = Some v -> nth_error K h = Some k -> remembered s (B v) k.

Lemma texted_ext Dn Dv c s s' w o : ext Dn Dv c s s' -> texted s w o -> texted s' w o.
Proof. intros X H. destruct o as [t|]; auto. destruct H as (p & -> & N0 & Sf). exists p. split; auto. split; auto. eapply safetext_ext; eauto. Qed.
Lemma remembered_ext Dn Dv c s s' ca k : ext Dn Dv c s s' -> remembered s ca k -> remembered s' ca k.
Proof.
  intros X [H1 H2 H3 H4]. constructor; eauto using texted_ext. destruct (kAlt k) as [|t|d]; auto.
  destruct H2 as (p & -> & N0 & Sf). exists p. split; auto. split; auto. eapply safetext_ext; eauto.
Qed.
Lemma caches_ext Dn Dv c E s s' B K : ext Dn Dv c s s' -> caches E s B K -> caches E s' B K.
Proof. intros X [L H]. split; auto. intros. eapply remembered_ext; eauto. Qed.
Lemma remembered_no s : remembered s no_cache kclear.
Proof. constructor; reflexivity. Qed.
Lemma setC_eq B v c : setC B v c v = c.
Proof. unfold setC. destruct (addr_eqb_spec v v); congruence. Qed.
Lemma setC_neq B v c x : x <> v -> setC B v c x = B x.
Proof. intro N. unfold setC. destruct (addr_eqb_spec x v); congruence. Qed.
Lemma caches_set E s B K h v c k : NoDup (eh E) -> caches E s B K -> nth_error (eh E) h = Some v -> remembered s c k -> caches E s (setC B v c) (setn h k K).
Proof.
  intros ND [L H] Hv Rm. split; [now rewrite length_setn|]. intros h' v' k' H1 H2. rewrite nth_setn in H2. destruct (Nat.eqb_spec h' h) as [->|Nh].
  - destruct (nth_error K h); [|discriminate]. injection H2 as <-. replace v' with v by congruence. now rewrite setC_eq.
  - rewrite setC_neq; [eauto|]. intros ->. apply Nh. eapply nd_inj; eauto.
Qed.
Lemma caches_wiped E s l : NoDup (eh E) -> (forall h, In h l -> nth_error (eh E) h <> None) -> forall B K, caches E s B K ->
  caches E s (wiped E B l) (fold_left (fun K h => setn h kclear K) l K).
Proof.
  intro ND. induction l as [|h l IH]; intros Hl B K C; auto. cbn [wiped fold_left]. unfold wiped in IH. cbn [fold_left].
  destruct (nth_error (eh E) h) as [v|] eqn:Hv; [|elim (Hl h); [now left|auto]].
  apply IH; [intros; apply Hl; now right|]. apply caches_set; auto. apply remembered_no.
Qed.
Lemma caches_add E s B K v : caches E s B K -> ~ In v (eh E) -> caches (mkE (eh E ++ [v]) (ea E)) s (z_ValueInitCache B v) (K ++ [kclear]).
Proof.
  intros [L H] Nv. split; [cbn [eh]; rewrite !app_length; cbn; lia|]. cbn [eh]. intros h v' k H1 H2.
  destruct (Nat.lt_ge_cases h (length (eh E))) as [Lt|Ge].
  - rewrite nth_error_app1 in H1, H2 by (auto; rewrite L; auto). unfold z_ValueInitCache. rewrite setC_neq; [eauto|]. intros ->. apply Nv. eapply nth_error_In; eauto.
  - rewrite nth_error_app2 in H1, H2 by (auto; rewrite L; auto). rewrite L in H2. destruct (h - length (eh E))%nat as [|[|q]]; [|discriminate..].
    injection H1 as <-. injection H2 as <-. unfold z_ValueInitCache. rewrite setC_eq. apply remembered_no.
Qed.
(** A copy, as its reader sees it. *)
Lemma kept_copy s p b : safetext s p (b ++ [0]) -> kept_text s p (before0 b).
Proof.
  intro Sf. split; [apply before0_no0|]. destruct (before0_split b []) as (r' & E & _). rewrite E in Sf.
  change (0 :: r') with ([0] ++ r') in Sf. rewrite app_assoc in Sf. now apply safetext_app in Sf as [Sf _].
Qed.
Lemma kept_read s p t (Q : bytes -> st -> Prop) : wfst s -> kept_text s p t -> Q t s -> wp (cstr_at (At p)) s Q.
Proof.
  intros W [N0 [Sf _]] HQ. destruct (holds_text s p _ W Sf) as (r & Et). rewrite <- app_assoc in Et. cbn [app] in Et.
  eapply cstr_wp; [exact Et|]. now rewrite before0_id.
Qed.
End Remember.

(** ** Every call *)
Definition bgoes {VV : vols} {NN : need} (E : env) (F : dom) (s : st) (x : answer) (R' : rst) (K' : list kache) (xb : (answer * env) * bmem) (s' : st) : Prop :=
  goes E F s x R' (fst xb) s' /\ caches (snd (fst xb)) s' (snd xb) K'.
Definition bsimulated (jd : judge) (c : call) : Prop := forall R K x R' K', brstep jd c (R, K) = Some (x, (R', K')) ->
  exists f0, (f0 <= passes c R)%nat /\ forall (VV : vols) E nm F s fuel B, (f0 <= fuel)%nat -> sim R E nm F s -> caches E s B K -> (cneed c <> 0 -> cache_ready E s (cneed c)) ->
    wp (bstep fuel c E B) s (@bgoes VV (cneed c) E F s x R' K').
Ltac node Himg i t f Gi Fi Ik Iv Ip := destruct (Himg i t eq_refl) as (Gi & f & Fi & Ik & Iv & Ip).

Section Steps.
Variable jd : judge.
Hypothesis J : correct jd.
Lemma clears_known c R x R' h : zrstep jd c R = Some (x, R') -> In h (clears c x) -> exists o k, nth_error (rh R) h = Some (o, k).
Proof.
  intros St Hin. assert (Lk : forall h0, look R h0 <> None -> exists o k, nth_error (rh R) h0 = Some (o, k)).
  { intros h0 L. unfold look in L. destruct (nth_error (rh R) h0) as [[o k]|]; [eauto|congruence]. }
  destruct c; cbn [clears] in Hin; try contradiction; cbn [zrstep rstep] in St; destruct x as [|[]| | | | | | | |]; try contradiction;
    try (match type of Hin with In _ (if ?b then _ else _) => destruct b end; try contradiction);
    repeat (destruct Hin as [<-|Hin]; [apply Lk; intro L0; rewrite L0 in St; try discriminate St; destruct (look R h0) as [[? ?]|]; discriminate St|]); try contradiction.
Qed.
Lemma bstep_plain c : caching c = false -> bsimulated jd c.
Proof.
  intros Nc R K x R' K' St.
  assert (Sz : exists R1, zrstep jd c R = Some (x, R1) /\ R' = R1 /\ K' = forget c x K).
  { destruct c; try discriminate Nc; cbn [brstep] in St; try (destruct fast; [|discriminate Nc]);
      match type of St with match ?m with _ => _ end = _ => destruct m as [[x0 R0]|] eqn:E0; [|discriminate St] end; injection St as <- <- <-; eauto. }
  clear St. destruct Sz as (R1 & Sz & <- & ->). destruct (zstep_all jd J c R x R' Sz) as (f0 & L0 & Hz). exists f0. split; auto.
  intros VV E nm F s fuel B Hf S C Cr.
  assert (T : traced (zstep fuel c E) (bstep fuel c E B) (shaped c E B)) by (apply (bstep_zstep jd c R); auto; congruence).
  eapply wp_mono; [exact (traced_wp _ _ _ s _ T (Hz VV E nm F s fuel Hf S Cr))|].
  intros [[x' E'] B'] s' [G Sh]. cbn [fst snd] in *. split; [exact G|]. cbn [fst snd]. destruct G as (Ex & nm' & F' & Af). cbn [fst snd] in *. subst x'.
  destruct (af_ext _ _ _ _ _ _ _ _ Af) as (c0 & X & _). pose proof (caches_ext _ _ _ _ _ _ _ _ X C) as C1.
  destruct Sh as [(v & Eq & ->)|(Nv & Eh & ->)].
  - injection Eq as -> ->. cbn [forget]. apply caches_add; auto. pose proof (sm_ndh _ _ _ _ _ (af_sim _ _ _ _ _ _ _ _ Af)) as ND. cbn [eh] in ND.
    apply NoDup_remove_2 in ND. rewrite app_nil_r in ND. exact ND.
  - assert (Fg : forget c x K = fold_left (fun K h => setn h kclear K) (clears c x) K).
    { unfold forget. destruct x as [| | | | | | | |[n|]|]; auto. now elim (Nv n). }
    rewrite Fg. assert (C2 : caches E s' (wiped E B (clears c x)) (fold_left (fun K h => setn h kclear K) (clears c x) K)).
    { apply caches_wiped; auto; [apply S|]. intros h Hh. destruct (clears_known c R x R' h Sz Hh) as (o & k & Hr).
      apply nth_error_Some. rewrite (sm_lh _ _ _ _ _ S). apply nth_error_Some. congruence. }
    destruct C2 as [L2 H2]. cbn [fst snd] in Eh. split; [congruence|]. rewrite Eh. exact H2.
Qed.

(** *** The getters *)
Section Get.
Context {VV : vols} {NN : need}.
Variables (E : env) (F : dom) (R : rst) (nm : N -> addr) (s : st) (B : bmem) (K : list kache) (h : nat) (wo : option (N * tnode)) (ka : nat) (v : addr) (A : N) (k : kache).
Hypothesis S : sim R E nm F s.
Hypothesis C : caches E s B K.
Hypothesis L : look R h = Some (wo, ka).
Hypothesis Hv : nth_error (eh E) h = Some v.
Hypothesis HA : nth_error (ea E) ka = Some A.
Hypothesis Hk : nth_error K h = Some k.
Lemma get_rem : remembered s (B v) k.
Proof. exact (proj2 C h v k Hv Hk). Qed.
(** Nothing there, or found in the cache *)
Lemma none_text (m : M (option word * bmem)) : wp m s (fun r s' => r = (None, B) /\ s' = s) ->
  wp (out_textB E m) s (bgoes E F s (Text None) R K).
Proof.
  intro H. unfold out_textB. apply wp_bind. eapply wp_mono; [exact H|]. intros r s' [-> ->]. cbn [fst snd out_text].
  apply wp_bind, wp_ret, wp_ret. split; cbn [fst snd]; auto. split; auto. exists nm, F. now apply after_refl.
Qed.
Lemma hit_text (m : M (option word * bmem)) p t : kept_text s p t -> wp m s (fun r s' => r = (Some (At p), B) /\ s' = s) ->
  wp (out_textB E m) s (bgoes E F s (Text (Some t)) R K).
Proof.
  intros Kt H. unfold out_textB. apply wp_bind. eapply wp_mono; [exact H|]. intros r s' [-> ->]. cbn [fst snd out_text].
  apply wp_bind, wp_bind, (kept_read s p t); [apply S|exact Kt|]. apply wp_ret, wp_ret. split; cbn [fst snd]; auto. split; auto. exists nm, F. now apply after_refl.
Qed.
(** A new copy *)
Lemma miss_text (m : M (option word * bmem)) put b n ru' k' : pays E (ru R) ru' (at_ A n) ->
  wp m s (fun r s' => exists p, r = (Some (At p), setC B v (put p)) /\ ext none none (at_ A n) s s' /\ filled s s' p (b ++ [0])) ->
  (forall p s', ext none none (at_ A n) s s' -> kept_text s' p (before0 b) -> remembered s' (put p) k') ->
  wp (out_textB E m) s (bgoes E F s (Text (Some (before0 b))) (mkR (rG R) (rn R) (rh R) ru') (setn h k' K)).
Proof.
  intros Py H Rm. unfold out_textB. apply wp_bind. eapply wp_mono; [exact H|]. intros r s' (p & -> & X & Fl). cbn [fst snd out_text].
  pose proof (kept_copy s' p b (fl_safe _ _ _ _ Fl)) as Kt.
  apply wp_bind, wp_bind, (kept_read s' p (before0 b)); [apply (x_wf _ _ _ _ _ X)|exact Kt|]. apply wp_ret, wp_ret. split; cbn [fst snd].
  - split; auto. exists nm, F. eapply after_same; eauto. apply mine_at. eapply nth_error_In; eauto.
  - apply caches_set; auto; [apply S|eapply caches_ext; eauto].
Qed.
End Get.
Lemma texted_defined {VV : vols} s w o : texted s w o -> w <> Undef.
Proof. destruct o as [t|]; cbn; [intros (p & -> & _)|intros ->]; discriminate. Qed.

Lemma bstep_getText num h : bsimulated jd (CGetText num false h).
Proof.
  intros R K x R' K' St. exists 0%nat. split; [apply Nat.le_0_l|]. intros VV E nm F s fuel B _ S C _. cbn [brstep bstep] in *.
  destruct (look R h) as [[w ka]|] eqn:L; [|discriminate]. destruct (nth_error K h) as [k|] eqn:Hk; [|discriminate]. looked S L v A Hv HA.
  pose proof (get_rem E s B K h v k C Hv Hk) as Rm. pose proof (texted_defined _ _ _ (rm_str _ _ _ Rm)) as Nu.
  set (ty := if num then TNumber else TString). replace (if num then z_ValueGetNumStr B v else z_ValueGetString B v) with (z_get_text ty B v) by (now destruct num).
  destruct w as [[i t]|]; cbn [option_map fst snd wopt] in *.
  2:{ injection St as <- <- <-. eapply none_text; eauto. eapply zgetText_empty; eauto; apply S. }
  node Himg i t f Gi Fi Ik Iv Ip. pose proof (ntext_img nm (tvalue t) num) as En. rewrite <- Iv in En. fold ty in En.
  assert (G := zgetText_wp s F v A B (sm_inv _ _ _ _ _ S) (nm i) f Hh Fi ty ltac:(subst ty; destruct num; auto) Nu).
  rewrite En in G. destruct (ntext num (tvalue t)) as [b|].
  2:{ injection St as <- <- <-. eapply none_text; eauto. eapply wp_mono; [apply G; discriminate|intros r s' Hr; exact Hr]. }
  pose proof (rm_str _ _ _ Rm) as Tx. destruct (kStr k) as [t0|]; cbn [texted recall] in *.
  - injection St as <- <- <-. destruct Tx as (p & Ec & Kt). rewrite Ec in G. eapply hit_text; eauto. eapply wp_mono; [apply G; discriminate|intros r s' Hr; exact Hr].
  - unfold recall in St. destruct (spend R ka _) as [R1|] eqn:Sp; [|discriminate]. spent S HA Sp ru' Py Le. injection St as <- <- <-. rewrite Tx in G.
    eapply (miss_text E F R nm s B K h ka v A) with (put := fun p => mkC (At p) (cAlt (B v)) (cKey (B v)) (cUn (B v))); try exact Py; auto.
    + eapply wp_mono; [apply G; intros b0 _ [= <-]; auto|]. intros r s' Hr. exact Hr.
    + intros p s' X Kt. destruct (remembered_ext _ _ _ _ _ _ _ X Rm) as [Q1 Q2 Q3 Q4]. constructor; cbn; auto. exists p. auto.
Qed.
Lemma bstep_getKey h : bsimulated jd (CGetKey false h).
Proof.
  intros R K x R' K' St. exists 0%nat. split; [apply Nat.le_0_l|]. intros VV E nm F s fuel B _ S C _. cbn [brstep bstep] in *.
  destruct (look R h) as [[w ka]|] eqn:L; [|discriminate]. destruct (nth_error K h) as [k|] eqn:Hk; [|discriminate]. looked S L v A Hv HA.
  pose proof (get_rem E s B K h v k C Hv Hk) as Rm. pose proof (texted_defined _ _ _ (rm_key _ _ _ Rm)) as Nu.
  destruct w as [[i t]|]; cbn [option_map fst snd wopt] in *.
  2:{ injection St as <- <- <-. eapply none_text; eauto. eapply zgetKey_empty; eauto; apply S. }
  node Himg i t f Gi Fi Ik Iv Ip.
  assert (G := zgetKey_wp s F v A B (sm_inv _ _ _ _ _ S) (nm i) f Hh Fi Nu). rewrite Ik in G. destruct (tkey t) as [b|].
  2:{ injection St as <- <- <-. eapply none_text; eauto. eapply wp_mono; [apply G; discriminate|intros r s' Hr; exact Hr]. }
  pose proof (rm_key _ _ _ Rm) as Tx. destruct (kKey k) as [t0|]; cbn [texted recall] in *.
  - injection St as <- <- <-. destruct Tx as (p & Ec & Kt). rewrite Ec in G. eapply hit_text; eauto. eapply wp_mono; [apply G; discriminate|intros r s' Hr; exact Hr].
  - unfold recall in St. destruct (spend R ka _) as [R1|] eqn:Sp; [|discriminate]. spent S HA Sp ru' Py Le. injection St as <- <- <-. rewrite Tx in G.
    eapply (miss_text E F R nm s B K h ka v A) with (put := fun p => mkC (cStr (B v)) (cAlt (B v)) (At p) (cUn (B v))); try exact Py; auto.
    + eapply wp_mono; [apply G; intros b0 _ [= <-]; auto|]. intros r s' Hr. exact Hr.
    + intros p s' X Kt. destruct (remembered_ext _ _ _ _ _ _ _ X Rm) as [Q1 Q2 Q3 Q4]. constructor; cbn; auto. exists p. auto.
Qed.
Lemma bstep_getUnEscapeKey h : bsimulated jd (CGetUnEscapeKey h).
Proof.
  intros R K x R' K' St. exists 0%nat. split; [apply Nat.le_0_l|]. intros VV E nm F s fuel B _ S C _. cbn [brstep bstep] in *.
  destruct (look R h) as [[w ka]|] eqn:L; [|discriminate]. destruct (nth_error K h) as [k|] eqn:Hk; [|discriminate]. looked S L v A Hv HA.
  pose proof (get_rem E s B K h v k C Hv Hk) as Rm. pose proof (texted_defined _ _ _ (rm_un _ _ _ Rm)) as Nu.
  destruct w as [[i t]|]; cbn [option_map fst snd wopt] in *.
  2:{ injection St as <- <- <-. eapply none_text; eauto. eapply zgetUnEscapeKey_empty; eauto; apply S. }
  node Himg i t f Gi Fi Ik Iv Ip. destruct (tkey t) as [b|] eqn:Et.
  2:{ injection St as <- <- <-. eapply none_text; eauto. eapply zgetUnEscapeKey_no; eauto. apply S. }
  pose proof (rm_un _ _ _ Rm) as Tx. destruct (kUn k) as [t0|]; cbn [texted recall] in *.
  - injection St as <- <- <-. destruct Tx as (p & Ec & Kt). eapply hit_text; eauto. eapply zgetUnEscapeKey_hit; eauto. apply S.
  - unfold recall in St. destruct (o_dec jd b) as [d|] eqn:Ed; [|discriminate]. apply (jd_dec jd J) in Ed.
    destruct (spend R ka _) as [R1|] eqn:Sp; [|discriminate]. spent S HA Sp ru' Py Le. injection St as <- <- <-.
    assert (G := zgetUnEscapeKey_wp s F v A B (sm_inv _ _ _ _ _ S) (nm i) f Hh Fi b d Ik Nu Ed (fun _ => Le)). rewrite Tx in G.
    eapply (miss_text E F R nm s B K h ka v A) with (put := fun p => mkC (cStr (B v)) (cAlt (B v)) (cKey (B v)) (At p)); try exact Py; auto.
    intros p s' X Kt. destruct (remembered_ext _ _ _ _ _ _ _ X Rm) as [Q1 Q2 Q3 Q4]. constructor; cbn; auto. exists p. auto.
Qed.
Lemma bstep_getUnEscape h : bsimulated jd (CGetUnEscape h).
Proof.
  intros R K x R' K' St. exists 0%nat. split; [apply Nat.le_0_l|]. intros VV E nm F s fuel B _ S C _. cbn [brstep bstep] in *.
  destruct (look R h) as [[w ka]|] eqn:L; [|discriminate]. destruct (nth_error K h) as [k|] eqn:Hk; [|discriminate]. looked S L v A Hv HA.
  pose proof (get_rem E s B K h v k C Hv Hk) as Rm.
  destruct w as [[i t]|]; cbn [option_map fst snd wopt] in *.
  2:{ injection St as <- <- <-. eapply none_text; eauto. eapply zgetUnEscape_empty; eauto; apply S. }
  node Himg i t f Gi Fi Ik Iv Ip. destruct (ntext false (tvalue t)) as [b|] eqn:Et.
  2:{ injection St as <- <- <-. eapply none_text; eauto. eapply zgetUnEscape_no; eauto; [apply S|]. rewrite Iv. now destruct (tvalue t) as [| | | |[] ks]. }
  assert (Eb : fvalue f = VStr b).
  { rewrite Iv. destruct (tvalue t) as [| | | |ob ks]; try discriminate. cbn in Et. injection Et as ->. reflexivity. }
  pose proof (rm_alt _ _ _ Rm) as Tx. destruct (kAlt k) as [|t0|d0]; cbn [alted recall] in *; [| |discriminate].
  - unfold recall in St. destruct (o_dec jd b) as [d|] eqn:Ed; [|discriminate]. apply (jd_dec jd J) in Ed.
    destruct (spend R ka _) as [R1|] eqn:Sp; [|discriminate]. spent S HA Sp ru' Py Le. injection St as <- <- <-.
    eapply (miss_text E F R nm s B K h ka v A) with (put := fun p => mkC (cStr (B v)) (AText p) (cKey (B v)) (cUn (B v))); try exact Py; auto.
    + exact (zgetUnEscape_miss s F v A B (sm_inv _ _ _ _ _ S) (nm i) f Hh Fi b d Eb Tx Ed Le).
    + intros p s' X Kt. destruct (remembered_ext _ _ _ _ _ _ _ X Rm) as [Q1 Q2 Q3 Q4]. constructor; cbn; auto. exists p. auto.
  - injection St as <- <- <-. destruct Tx as (p & Ec & Kt). eapply hit_text; eauto. eapply zgetUnEscape_hit; eauto. apply S.
Qed.
Lemma bstep_getDouble h : bsimulated jd (CGetDouble h).
Proof.
  intros R K x R' K' St. exists 0%nat. split; [apply Nat.le_0_l|]. intros VV E nm F s fuel B _ S C _. cbn [brstep bstep] in *.
  destruct (look R h) as [[w ka]|] eqn:L; [|discriminate]. destruct (nth_error K h) as [k|] eqn:Hk; [|discriminate]. looked S L v A Hv HA.
  pose proof (get_rem E s B K h v k C Hv Hk) as Rm.
  assert (No : wp (z_ValueGetNum B v) s (fun r s' => r = (None, B) /\ s' = s) -> wp (out_numB E (z_ValueGetNum B v)) s (@bgoes VV (cneed (CGetDouble h)) E F s (Real None) R K)).
  { intro H. unfold out_numB. apply wp_bind. eapply wp_mono; [exact H|]. intros r s' [-> ->]. cbn [fst snd out_num].
    apply wp_bind, wp_ret, wp_ret. split; cbn [fst snd]; auto. split; auto. exists nm, F. now apply after_refl. }
  destruct w as [[i t]|]; cbn [option_map fst snd wopt] in *.
  2:{ injection St as <- <- <-. apply No. eapply zgetNum_empty; eauto; apply S. }
  node Himg i t f Gi Fi Ik Iv Ip. destruct (ntext true (tvalue t)) as [b|] eqn:Et; cbn [option_map] in St.
  2:{ injection St as <- <- <-. apply No. eapply zgetNum_no; eauto; [apply S|]. rewrite Iv. now destruct (tvalue t) as [| | | |[] ks]. }
  clear No. pose proof (ntext_num t b f nm Et Iv) as Eb.
  pose proof (rm_alt _ _ _ Rm) as Tx. destruct (kAlt k) as [|t0|d0]; cbn [alted] in *; [|discriminate|].
  - destruct (o_real jd b) as [d|] eqn:Ed; [|discriminate]. apply (jd_real jd J) in Ed. destruct (tstop t) eqn:Ts; [|discriminate].
    destruct (spend R ka 8) as [R1|] eqn:Sp; [|discriminate]. spent S HA Sp ru' Py Le. injection St as <- <- <-.
    destruct (stop_text R E nm F s i t f b S Gi Ts Fi Eb) as (n & p & c & r & Sn & Ep & Hc & Et').
    unfold out_numB. apply wp_bind.
    eapply wp_mono; [eapply (zgetNum_miss s F v A B (sm_inv _ _ _ _ _ S) (nm i) f Hh Fi b (b ++ c :: r) d); eauto|].
    + now destruct b.
    + apply atof_real; auto.
    + intros n' p' Sn' Ep'. congruence.
    + intros rr s' (q & -> & X). cbn [fst snd out_num]. apply wp_bind, wp_ret, wp_ret. split; cbn [fst snd].
      * split; auto. exists nm, F. eapply after_same; eauto. apply mine_at. eapply nth_error_In; eauto.
      * unfold put_alt. apply caches_set; auto; [apply S|eapply caches_ext; eauto|].
        destruct (remembered_ext _ _ _ _ _ _ _ X Rm) as [Q1 Q2 Q3 Q4]. constructor; cbn; eauto.
  - injection St as <- <- <-. destruct Tx as (p & Ec). unfold out_numB. apply wp_bind.
    eapply wp_mono; [eapply (zgetNum_hit s F v A B (sm_inv _ _ _ _ _ S) (nm i) f Hh Fi b p (Some d0)); eauto|].
    intros r s' [-> ->]. cbn [fst snd out_num]. apply wp_bind, wp_ret, wp_ret. split; cbn [fst snd]; auto. split; auto. exists nm, F. now apply after_refl.
Qed.
Theorem bstep_all c : bsimulated jd c.
Proof.
  destruct (caching c) eqn:Nc; [|now apply bstep_plain].
  destruct c; try discriminate Nc; try (destruct fast; [discriminate Nc|]);
    auto using bstep_getText, bstep_getKey, bstep_getUnEscapeKey, bstep_getUnEscape, bstep_getDouble.
Qed.

(** ** Programs *)
Fixpoint bmost (cs : list call) (RK : rst * list kache) : nat :=
  match cs with
  | [] => 0
  | c :: r => match brstep jd c RK with Some (_, RK1) => Nat.max (passes c (fst RK)) (bmost r RK1) | None => 0 end
  end.
Theorem brun_most : forall cs RK rs RK', brrun jd cs RK = Some (rs, RK') ->
  forall (VV : vols) E nm F s fuel B, (bmost cs RK <= fuel)%nat -> sim (fst RK) E nm F s -> caches E s B (snd RK) -> cache_own E s ->
    wp (brun fuel cs E B) s (fun re s' => fst (fst re) = rs /\ cache_own (snd (fst re)) s' /\
      exists nm' F', sim (fst RK') (snd (fst re)) nm' F' s' /\ caches (snd (fst re)) s' (snd re) (snd RK')).
Proof.
  induction cs as [|c cs IH]; intros [R K] rs [R' K'] H; cbn [brrun] in H.
  - injection H as <- <- <-. intros VV E nm F s fuel B _ S C O. apply wp_ret. cbn. eauto 8.
  - cbn [bmost]. destruct (brstep jd c (R, K)) as [[x [R1 K1]]|] eqn:E1; [|discriminate]. destruct (brrun jd cs (R1, K1)) as [[xs RK2]|] eqn:E2; [|discriminate]. injection H as <- ->.
    destruct (bstep_all c R K x R1 K1 E1) as (f1 & L1 & H1). pose proof (IH (R1, K1) xs (R', K') E2) as H2.
    intros VV E nm F s fuel B Hf S C O. cbn [brun fst snd] in *. apply wp_bind. eapply wp_mono; [apply (H1 VV E nm F s fuel B); [lia|auto|auto|intros _; now apply own_ready]|].
    intros [xe B1] s1 ((Hx & nm1 & F1 & Af) & C1). cbn [fst snd] in *. apply wp_bind.
    eapply wp_mono; [apply (H2 VV (snd xe) nm1 F1 s1 fuel B1); [lia|apply (af_sim _ _ _ _ _ _ _ _ Af)|exact C1|eapply own_after; eauto]|].
    intros re s2 (Hr & O2 & nm2 & F2 & S2 & C2). apply wp_ret. cbn [fst snd]. split; [congruence|]. eauto 8.
Qed.
Theorem bprogram_most cs rs R K : brrun jd cs (rstart, []) = Some (rs, (R, K)) ->
  forall fuel, (bmost cs (rstart, []) <= fuel)%nat -> exists E B s, brun fuel cs estart bstart init = Ok (((rs, E), B), s) /\ represents R E s.
Proof.
  intros H fuel Hf.
  destruct (brun_most cs (rstart, []) rs (R, K) H novols estart _ nodocs init fuel bstart Hf start_sim) as ([[rs' E] B] & s & Er & Hr & _ & nm' & F' & S & _).
  - split; auto. intros h v k Hh. destruct h; discriminate.
  - exact start_own.
  - cbn [fst snd] in *. subst rs'. exists E, B, s. split; auto. exists nm', F'. exact S.
Qed.
End Steps.
