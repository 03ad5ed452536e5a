(** Programs with the classes of zzzjson.hpp that decide by the answers what to do next, keep
    the pointers they are given and pass them on: Keep.v for the methods of zzzjson::Value
    instead of the functions of zzzjson.h. *)
From Verif Require Import Base Spec Lex LexProofs Alloc AllocProofs Mem MemProofs Api Double PureParse Dom Effect CacheProofs SetFacts Start Vocab Steps MoveProofs
  Hist HistRun HistForest HistSim HistStep HistAll HistMany HistWorld Leak Budget BetaClient Keep Hpp HppAll.

Inductive hstmt :=
| HApi (c : hcall)
| HTake (g : giver) (h : nat)                  (* p_n = object h.g(), for the next n *)
| HLook (k : nat)                              (* the text at p_k is read *)
| HGive (u : taker) (h k : nat).               (* object h.u(p_k) *)

(** ** On the reference: a pointer is the text it was got for, for good *)
Section Ref.
Variable jd : judge.
Definition hrcall (c : hcall) (Z : pst) : option (answer * pst) :=
  match hrstep jd c (fst Z) with Some (x, R) => Some (x, (R, snd Z)) | None => None end.
Definition hsstep (c : hstmt) (Z : pst) : option (answer * pst) :=
  match c with
  | HApi c => hrcall c Z
  | HTake g h =>
      match hrstep jd (HC (pcall g h)) (fst Z) with
      | Some (x, R) => Some (x, (R, snd Z ++ [match x with Text (Some t) => if is_pview g then RV t else RC t | _ => RNull end]))
      | None => None
      end
  | HLook k =>
      match nth_error (snd Z) k with
      | Some r => Some (Text (option_map snd (rtext r)), Z)
      | None => None
      end
  | HGive u h k =>
      match nth_error (snd Z) k with
      | Some r =>
          match rtext r with
          | Some (view, t) => match tcall u view h t with Some c => hrcall (HC c) Z | None => None end
          | None => None
          end
      | None => None
      end
  end.
End Ref.

(** ** On the model *)
(** The methods Stringify, GetStr, GetUnEscapeStr, GetNumStr, GetKey, GetUnEscapeKey
    (/repo/zzzjson.hpp:43, 45, 46, 48, 56, 57) and GetStrFast, GetNumFast, GetKeyFast
    (/repo/zzzjson.hpp:44, 47, 58). *)
Definition w_give (fuel : nat) (g : giver) (W : wmem) (w : addr) : M (option word) :=
  match g with
  | PUnEscape => w_GetUnEscapeStr W w
  | PKey => w_GetKey W w
  | PUnEscapeKey => w_GetUnEscapeKey W w
  | PPrint => r <- w_Stringify W w fuel ;; ret (Some r)
  | PText true => w_GetNumStr W w
  | _ => w_GetStr W w
  end.
Definition w_view (g : giver) (W : wmem) (w : addr) : M (option (word * N)) :=
  match g with PViewText true => w_GetNumFast W w | PViewKey => w_GetKeyFast W w | _ => w_GetStrFast W w end.
(** The method [u] on the memory at [p], [n]: the length if it is passed
    (/repo/zzzjson.hpp:40-42, 59-66, 88-95, 101-122, 132). *)
Definition w_take (fuel : nat) (u : taker) (view : bool) (H : henv) (w p : addr) (n : N) : M (answer * henv) :=
  let W := hm H in
  match u with
  | TParse fast => with_henv H Bool (if view then w_ParseLen W w p n else if fast then w_ParseFast W w p else w_Parse W w p)
  | TText num fast => with_henv H Bool (w_set_text num (kind_of view fast) W w p n)
  | TEscape => with_henv H Bool (if view then w_SetStrLenEscape W w p n else w_SetStrEscape W w p)
  | TKey fast => with_henv H Bool (w_set_key (kind_of view fast) W w p n)
  | TKeyEscape => with_henv H Bool (if view then w_SetKeyLenEscape W w p n else w_SetKeyEscape W w p)
  | TFind => r <- (if view then w_ObjGetLen W w fuel p n else w_ObjGet W w fuel p) ;; ret (out_w H r)
  | TDelete => with_henv H Bool (w_ObjDel W w fuel p)
  end.
Definition hmst := (henv * list mptr)%type.
Definition hmcall (m : M (answer * henv)) (P : list mptr) : M (answer * hmst) := xe <- m ;; ret (fst xe, (snd xe, P)).
Definition hmstep (fuel : nat) (c : hstmt) (Z : hmst) : M (answer * hmst) :=
  let '(H, P) := Z in
  match c with
  | HApi c => hmcall (hstep fuel c H) P
  | HTake g h =>
      w <- wof H h ;;
      if is_pview g then
        r <- w_view g (hm H) w ;; x <- out_view r ;; ret (x, (H, P ++ [match r with Some (w, n) => MV w n | None => MNull end]))
      else
        r <- w_give fuel g (hm H) w ;; x <- out_text r ;; ret (x, (H, P ++ [match r with Some w => MC w | None => MNull end]))
  | HLook k =>
      p <- mtake P k ;;
      x <- (match p with MNull => ret (Text None) | MC w => out_text (Some w) | MV w n => out_view (Some (w, n)) end) ;;
      ret (x, Z)
  | HGive u h k =>
      w <- wof H h ;; p <- mtake P k ;;
      match p with
      | MNull => fail EDeref
      | MC a => a <- deref a ;; hmcall (w_take fuel u false H w a 0) P
      | MV a n => a <- deref a ;; hmcall (w_take fuel u true H w a n) P
      end
  end.

(** ** Programs *)
Inductive hprog (X : Type) :=
| HRet (x : X)
| HStuck
| HAct (c : hstmt) (k : answer -> hprog X).
Arguments HRet {X} x.
Arguments HStuck {X}.
Arguments HAct {X} c k.
Fixpoint hrplay {X} (jd : judge) (p : hprog X) (Z : pst) : option (X * pst) :=
  match p with
  | HRet x => Some (x, Z)
  | HStuck => None
  | HAct c k => match hsstep jd c Z with Some (a, Z1) => hrplay jd (k a) Z1 | None => None end
  end.
Fixpoint hmplay {X} (fuel : nat) (p : hprog X) (Z : hmst) : M (X * hmst) :=
  match p with
  | HRet x => ret (x, Z)
  | HStuck => fail EFuel
  | HAct c k => az <- hmstep fuel c Z ;; hmplay fuel (k (fst az)) (snd az)
  end.
(** In a scope: at its end the destructors of the allocators run, the last one constructed
    first (hpp:18-20). *)
Definition hplay_scope {X} (fuel : nat) (p : hprog X) : M X :=
  xz <- hmplay fuel p (hstart, []) ;; release_all (rev (ha (fst (snd xz)))) ;;; ret (fst xz).

(** ** The two agree *)
Section Agree.
Variable jd : judge.
Hypothesis J : correct jd.
Definition hgets {VV : vols} (x : answer) (Z' : pst) (xz : answer * hmst) (s' : st) : Prop :=
  fst xz = x /\ let '(H', P') := snd xz in let '(R', T') := Z' in
    exists E' nm' F', sim R' E' nm' F' s' /\ cache_own E' s' /\ wrel H' E' s' /\ pointing s' P' T'.
Lemma hmcall_wp {VV : vols} {NN : need} m P E F s x R' T : cache_own E s -> pointing s P T ->
  wp m s (hgoes E F s x R') -> wp (hmcall m P) s (hgets x (R', T)).
Proof.
  intros O Pt K. unfold hmcall. apply wp_bind. eapply wp_mono; [exact K|]. intros [x' H'] s' (Hx & E' & nm' & F' & Af & Rl). cbn [fst snd] in *.
  apply wp_ret. split; [exact Hx|]. cbn [snd]. destruct (af_ext _ _ _ _ _ _ _ _ Af) as (c0 & X & _). exists E', nm', F'.
  split; [apply (af_sim _ _ _ _ _ _ _ _ Af)|]. split; [eapply own_after; eauto|]. split; [exact Rl|]. eapply pointing_ext; eauto.
Qed.
Lemma w_give_on fuel g W w s v : points W s w v -> w_give fuel g W w s = pgive fuel g v s.
Proof.
  intro P. destruct g as [num| | | | |num|]; cbn [w_give pgive]; try destruct num; try exact (on_ok _ _ _ _ _ _ P).
  unfold w_Stringify. unfold bind. now rewrite (on_ok _ _ _ _ _ _ P).
Qed.
Lemma w_view_on g W w s v : points W s w v -> w_view g W w s = pview g v s.
Proof. intro P. destruct g as [num| | | | |num|]; cbn [w_view pview]; try destruct num; exact (on_ok _ _ _ _ _ _ P). Qed.
(** SetNumStrLenFast copies. *)
Definition as_taker (u : taker) (view : bool) : taker := match u with TText true true => TText true (negb view) | _ => u end.
Lemma w_take_on fuel u view H E w s v p n : u <> TFind -> points (hm H) s w v ->
  w_take fuel u view H w p n s = match ptake fuel (as_taker u view) view E v p n s with Ok ((x, _), s') => Ok ((x, H), s') | Err e => Err e end.
Proof.
  intros Nf P.
  assert (Q : forall (mw mv : M bool), mw s = mv s -> with_henv H Bool mw s = match with_env E Bool mv s with Ok ((x, _), s') => Ok ((x, H), s') | Err e => Err e end).
  { intros mw mv Em. unfold with_henv, with_env, bind, ret. rewrite Em. now destruct (mv s) as [[b s']|e]. }
  destruct u as [fast|num fast| |fast| | |]; cbn [w_take as_taker ptake]; try (now elim Nf); try (apply Q).
  - destruct view; [|destruct fast]; exact (on_ok _ _ _ _ _ _ P).
  - destruct num, fast, view; cbn [negb ptake]; apply Q; exact (on_ok _ _ _ _ _ _ P).
  - destruct view; exact (on_ok _ _ _ _ _ _ P).
  - destruct fast, view; exact (on_ok _ _ _ _ _ _ P).
  - destruct view; exact (on_ok _ _ _ _ _ _ P).
  - exact (on_ok _ _ _ _ _ _ P).
Qed.
Lemma ptake_env fuel u view E v p n s x E' s' : u <> TFind -> ptake fuel u view E v p n s = Ok ((x, E'), s') -> E' = E.
Proof.
  intros Nf K. destruct u as [fast|num fast| |fast| | |]; cbn [ptake] in K; try (now elim Nf); unfold with_env in K; apply bind_inv in K as (y & s1 & _ & K); now injection K as _ <- _.
Qed.
Lemma as_taker_call u view h t c : tcall u view h t = Some c -> tcall (as_taker u view) view h t = Some (as_c c).
Proof.
  intro K. destruct u as [fast|num fast| |fast| | |]; cbn [tcall as_taker] in *.
  - destruct view, fast; try discriminate K; now injection K as <-.
  - destruct num, fast, view; injection K as <-; reflexivity.
  - now injection K as <-.
  - now injection K as <-.
  - now injection K as <-.
  - now injection K as <-.
  - destruct view; [discriminate|]. now injection K as <-.
Qed.
Lemma taker_value u view h t c : tcall u view h t = Some c -> makes_value c = match u with TFind => true | _ => false end.
Proof. destruct u as [fast|num fast| |fast| | |], view; cbn [tcall]; try destruct fast; try discriminate; now intros [= <-]. Qed.
Lemma hrstep_plain c R x R' : makes_value c = false -> hrstep jd (HC c) R = Some (x, R') -> rstep jd (as_c c) R = Some (x, R').
Proof. intros V K. unfold hrstep, plain in K. destruct (rstep jd (as_c c) R) as [r|]; [|discriminate]. now rewrite as_c_plain, V in K. Qed.

Lemma w_take_wp u view h t c R x R' : tcall u view h t = Some c -> hrstep jd (HC c) R = Some (x, R') ->
  forall (VV : vols) E nm F s fuel H w v p, (members R h <= fuel)%nat -> sim R E nm F s -> (hneed (HC c) <> 0 -> cache_ready E s (hneed (HC c))) -> wrel H E s ->
    nth_error (eh E) h = Some v -> points (hm H) s w v -> held (tfast (as_taker u view)) view s p t ->
    wp (w_take fuel u view H w p (lenN t)) s (@hgoes VV (hneed (HC c)) E F s x R').
Proof.
  intros Ec St VV E nm F s fuel H w v p Hf S O Rl Hv P Hp. pose proof (taker_value u view h t c Ec) as Mv.
  assert (D : u = TFind \/ u <> TFind) by (destruct u; auto; right; discriminate). destruct D as [->|Nf].
  - cbn [tcall] in Ec. injection Ec as <-. unfold hrstep, plain in St. cbn [as_c makes_value] in St.
    destruct (rstep jd (CObjGet view h t) R) as [[y R1]|] eqn:Er; [|discriminate].
    pose proof (take_wp jd J TFind view h t _ R y R1 eq_refl Er VV E nm F s fuel v p Hf S ltac:(intro K; now elim K) Hv Hp) as K.
    cbn [ptake] in K. apply out_inv in K. cbn [w_take]. apply (given (NN := 0)); auto.
    assert (Q : wp (on (hm H) w (fun v => r <- (if view then zj_ObjGetLen fuel v p (lenN t) else zj_ObjGet fuel v p) ;; innerNew (hm H) r)) s (@gives_object VV 0 H E F s x R')).
    { apply (on_wp _ _ _ _ v); auto. eapply wp_seq; [exact K|]. intros r s1 En. eapply wrap_wp; eauto. }
    destruct view; exact Q.
  - assert (V : makes_value c = false) by (destruct u; auto; now elim Nf). pose proof (hrstep_plain c R x R' V St) as Er.
    pose proof (as_taker_call u view h t c Ec) as Ec2.
    destruct (take_wp jd J (as_taker u view) view h t (as_c c) R x R' Ec2 Er VV E nm F s fuel v p Hf S O Hv Hp) as ([y E'] & s' & Eq & Hy & nm' & F' & Af).
    cbn [fst snd] in *. subst y. assert (E' = E) as ->.
    { eapply ptake_env; [|exact Eq]. destruct u as [fast|num fast| |fast| | |]; cbn [as_taker]; try discriminate; [|now elim Nf]. destruct num, fast; discriminate. }
    exists (x, H), s'. split; [rewrite (w_take_on fuel u view H E w s v) by auto; now rewrite Eq|].
    split; [reflexivity|]. exists E, nm', F'. split; [exact Af|]. cbn [snd]. destruct (af_ext _ _ _ _ _ _ _ _ Af) as (c0 & X & _). eapply wrel_ext; eauto.
Qed.

Lemma hstmt_wp c R T x Z' : hsstep jd c (R, T) = Some (x, Z') ->
  exists f0, forall (VV : vols) E nm F s fuel H P, (f0 <= fuel)%nat -> sim R E nm F s -> cache_own E s -> wrel H E s -> pointing s P T ->
    wp (hmstep fuel c (H, P)) s (hgets x Z').
Proof.
  intros St. destruct c as [c|g h|k|u h k]; cbn [hsstep hmstep fst snd] in *; unfold hrcall in *; cbn [fst snd] in *.
  - destruct (hrstep jd c R) as [[x0 R']|] eqn:E0; [|discriminate]. injection St as <- <-. destruct (hstep_ok jd J c R x0 R' E0) as (f0 & K). exists f0.
    intros VV E nm F s fuel H P Hf S O Rl Pt. apply (hmcall_wp (NN := hneed c) _ _ E F); auto. apply (K VV E nm F s fuel H); auto using own_ready.
  - destruct (hrstep jd (HC (pcall g h)) R) as [[x0 R']|] eqn:E0; [|discriminate]. injection St as <- <-.
    assert (V : makes_value (pcall g h) = false) by now destruct g. assert (Ac : as_c (pcall g h) = pcall g h) by now destruct g.
    apply (hrstep_plain _ _ _ _ V) in E0. rewrite Ac in E0. exists (ppasses (PTake g h) (R, T)).
    intros VV E nm F s fuel H P Hf S O Rl Pt.
    assert (Sp : psstep jd (PTake g h) (R, T) = Some (x0, (R', T ++ [match x0 with Text (Some t) => if is_pview g then RV t else RC t | _ => RNull end]))).
    { cbn [psstep fst snd]. now rewrite E0. }
    destruct (pstmt_wp jd J _ R T x0 _ Sp VV E nm F s fuel P Hf S O Pt) as ([x1 [E1 P1]] & s' & Eq & Hx & (Dn & Dv & c0 & X) & O1 & Pt1 & nm1 & F1 & S1).
    cbn [fst snd] in *. subst x1. cbn [pmstep] in Eq. apply bind_inv in Eq as (v & s1 & Ev & Eq).
    assert (Hv : nth_error (eh E) h = Some v /\ s1 = s).
    { unfold hof in Ev. destruct (nth_error (eh E) h) as [v0|]; [|discriminate]. injection Ev as <- <-. auto. }
    destruct Hv as [Hv ->]. assert (E1 = E) as ->.
    { destruct (is_pview g); apply bind_inv in Eq as (r & s2 & _ & Eq); apply bind_inv in Eq as (y & s3 & _ & Eq); now injection Eq as _ <- _ _. }
    apply (wof_wp H E s h _ _ v); auto; [apply S|]. intros w Pw.
    exists (x0, (H, P1)), s'. split.
    { destruct (is_pview g); apply bind_inv in Eq as (r & s2 & Eg & Eq); apply bind_inv in Eq as (y & s3 & Ey & Eq); injection Eq as <- <- <-;
        unfold bind at 1; [rewrite (w_view_on g _ w s v Pw)|rewrite (w_give_on fuel g _ w s v Pw)]; rewrite Eg; unfold bind at 1; now rewrite Ey. }
    split; [reflexivity|]. cbn [snd]. exists E, nm1, F1. split; [exact S1|]. split; [exact O1|]. split; [eapply wrel_ext; eauto|exact Pt1].
  - destruct (nth_error T k) as [r|] eqn:Hk; [|discriminate]. injection St as <- <-. exists 0%nat. intros VV E nm F s fuel H P _ S O Rl Pt.
    assert (Sp : psstep jd (PLook k) (R, T) = Some (Text (option_map snd (rtext r)), (R, T))) by (cbn [psstep snd]; now rewrite Hk).
    destruct (pstmt_wp jd J _ R T _ _ Sp VV E nm F s fuel P (Nat.le_0_l _) S O Pt) as ([x1 [E1 P1]] & s' & Eq & Hx & (Dn & Dv & c0 & X) & O1 & Pt1 & nm1 & F1 & S1).
    cbn [fst snd] in *. subst x1. cbn [pmstep] in Eq. apply bind_inv in Eq as (p & s1 & Ev & Eq). apply bind_inv in Eq as (y & s2 & Ey & Eq). injection Eq as <- <- <- <-.
    exists (y, (H, P)), s2. split; [unfold bind at 1; rewrite Ev; unfold bind at 1; now rewrite Ey|]. split; [reflexivity|]. cbn [snd].
    exists E, nm1, F1. split; [exact S1|]. split; [exact O1|]. split; [eapply wrel_ext; eauto|exact Pt1].
  - destruct (nth_error T k) as [r|] eqn:Hk; [|discriminate]. destruct (rtext r) as [[view t]|] eqn:Er; [|discriminate].
    destruct (tcall u view h t) as [c|] eqn:Ec; [|discriminate]. destruct (hrstep jd (HC c) R) as [[x0 R']|] eqn:E0; [|discriminate]. injection St as <- <-.
    exists (members R h). intros VV E nm F s fuel H P Hf S O Rl Pt.
    assert (exists v, nth_error (eh E) h = Some v) as (v & Hv).
    { assert (exists y R1, rstep jd (as_c c) R = Some (y, R1)) as (y & R1 & E1).
      { unfold hrstep, plain in E0. destruct (rstep jd (as_c c) R) as [[y R1]|]; [eauto|discriminate]. }
      exact (taken_value jd (as_taker u view) view h t (as_c c) R y R1 E nm F s (as_taker_call _ _ _ _ _ Ec) E1 S). }
    apply (wof_wp H E s h _ _ v); auto; [apply S|]. intros w Pw. apply (zmtake s P T k r); auto. intros m Pm.
    assert (W : forall p, held true view s p t -> wp (hmcall (w_take fuel u view H w p (lenN t)) P) s (hgets x0 (R', T))).
    { intros p Hp. apply (hmcall_wp (NN := hneed (HC c)) _ _ E F); auto. eapply w_take_wp; eauto using own_ready. destruct (tfast (as_taker u view)); auto using held_safe. }
    destruct r as [|t'|t']; try discriminate Er; injection Er as <- <-; destruct m as [|w'|w' n]; try contradiction; cbn [BetaClient.points] in Pm.
    + destruct Pm as (p & -> & Kt). apply wp_bind, wp_deref.
      replace (w_take fuel u false H w p 0) with (w_take fuel u false H w p (lenN t')); [exact (W p Kt)|].
      destruct u as [fast|num fast| |fast| | |]; cbn [w_take]; auto; try destruct num; destruct fast; reflexivity.
    + destruct Pm as (p & -> & -> & Sf). apply wp_bind, wp_deref. exact (W p Sf).
Qed.
Theorem hplay_ok X (p : hprog X) : forall R T x Z', hrplay jd p (R, T) = Some (x, Z') ->
  exists f0, forall (VV : vols) E nm F s fuel H P, (f0 <= fuel)%nat -> sim R E nm F s -> cache_own E s -> wrel H E s -> pointing s P T ->
    wp (hmplay fuel p (H, P)) s (fun xz s' => fst xz = x /\ let '(H', P') := snd xz in let '(R', T') := Z' in
      exists E' nm' F', sim R' E' nm' F' s' /\ cache_own E' s' /\ wrel H' E' s' /\ pointing s' P' T').
Proof.
  induction p as [x0| |c k IH]; intros R T x Z' K; cbn [hrplay hmplay] in *.
  - injection K as <- <-. exists 0%nat. intros. apply wp_ret. cbn [fst snd]. split; auto. exists E, nm, F. auto.
  - discriminate.
  - destruct (hsstep jd c (R, T)) as [[a [R1 T1]]|] eqn:E1; [|discriminate]. destruct (hstmt_wp c R T a _ E1) as (f1 & K1). destruct (IH a R1 T1 x Z' K) as (f2 & K2).
    exists (Nat.max f1 f2). intros VV E nm F s fuel H P Hf S O Rl Pt. apply wp_bind. eapply wp_mono; [apply (K1 VV E nm F s fuel H P); [lia|auto..]|].
    intros [a' [H2 P2]] s1 (Ha & E2 & nm2 & F2 & S2 & O2 & Rl2 & Pt2). cbn [fst snd] in *. subst a'. eapply (K2 VV); eauto. lia.
Qed.
(** Every program, from nothing. *)
Theorem hclient X (p : hprog X) x R T : hrplay jd p (rstart, []) = Some (x, (R, T)) ->
  exists f0, forall fuel, (f0 <= fuel)%nat ->
  exists H P s, hmplay fuel p (hstart, []) init = Ok ((x, (H, P)), s) /\ exists E, represents R E s /\ wrel H E s.
Proof.
  intro K. destruct (hplay_ok X p rstart [] x _ K) as (f0 & Q). exists f0. intros fuel Hf.
  destruct (Q novols estart _ nodocs init fuel hstart [] Hf start_sim start_own start_wrel ltac:(constructor)) as ([x' [H P]] & s & Er & Hr & E & nm & F & S & _ & Rl & _).
  cbn [fst snd] in *. subst x'. exists H, P, s. split; auto. exists E. split; auto. exists nm, F. exact S.
Qed.
End Agree.

(** ** The end of the scope *)
#[local] Hint Resolve ko_alloc ko_store ko_load ko_putNode ko_putVal ko_putZ ko_parse_loop ko_stringify_loop ko_nth_node ko_copy_loop ko_adopt ko_wval : keepo.
(** The statements that leave a buffer of the caller in use. *)
Definition hskeeps (c : hstmt) : bool := match c with HApi c => hkeeps c | _ => false end.
Lemma hmcall_inv m P s xz s' : hmcall m P s = Ok (xz, s') -> exists xe, m s = Ok (xe, s') /\ xz = (fst xe, (snd xe, P)).
Proof. intro K. apply bind_inv in K as (xe & s1 & K1 & K2). injection K2 as <- <-. eauto. Qed.
Lemma w_take_ha fuel u view H w p n : gives (w_take fuel u view H w p n) (fun xe => ha (snd xe) = ha H).
Proof. destruct u; cbn [w_take]; try (apply gi_henv; reflexivity). apply gi_bind. intro r. apply gi_ret, out_w_ha. Qed.
Lemma w_take_owned fuel u view H w p n : keepsO (w_take fuel u view H w p n).
Proof. destruct u as [fast|num fast| |fast| | |], view; cbn [w_take]; try destruct num; try destruct fast; cbn [kind_of w_set_text w_set_key]; owned. Qed.
Lemma hmstep_owned fuel c H P : (forall d, c <> HApi d) -> keepsO (hmstep fuel c (H, P)).
Proof.
  intro Na. destruct c as [c|g h|k|u h k]; [now elim (Na c)|..]; cbn [hmstep].
  - destruct g as [num| | | | |num|]; cbn [is_pview w_give w_view]; try destruct num; owned.
  - owned.
  - pose proof (w_take_owned fuel u) as Q. unfold hmcall. owned; apply Q.
Qed.
Lemma hmstep_ha fuel c H P : (forall d, c <> HApi d) -> gives (hmstep fuel c (H, P)) (fun xz => ha (fst (snd xz)) = ha H).
Proof.
  intro Na. destruct c as [c|g h|k|u h k]; [now elim (Na c)|..]; cbn [hmstep].
  - apply gi_bind. intro w. destruct (is_pview g); apply gi_bind; intro r; apply gi_bind; intro x; now apply gi_ret.
  - apply gi_bind. intro p. apply gi_bind. intro x. now apply gi_ret.
  - apply gi_bind. intro w. apply gi_bind. intro m. intros s xz s' K. destruct m as [|a|a n]; [discriminate K|..]; apply bind_inv in K as (p & s1 & _ & K);
      apply hmcall_inv in K as (xe & K & ->); exact (w_take_ha _ _ _ _ _ _ _ _ _ _ K).
Qed.
Lemma hmstep_live fuel c H P s xz s' U : fine U H s -> hmstep fuel c (H, P) s = Ok (xz, s') -> fine (U ++ if hskeeps c then [snext s] else []) (fst (snd xz)) s'.
Proof.
  intros Fi K. assert (D : (exists d, c = HApi d) \/ forall d, c <> HApi d) by (destruct c; [left; eauto|right; discriminate..]). destruct D as [(d & ->)|Na].
  - cbn [hmstep] in K. apply hmcall_inv in K as (xe & K & ->). cbn [fst snd hskeeps]. eapply hstep_live; eauto.
  - assert (hskeeps c = false) as -> by (destruct c; auto; now elim (Na c)). rewrite app_nil_r. destruct Fi as [T Kn L].
    pose proof (hmstep_ha fuel c H P Na s xz s' K) as Ee. cbv beta in Ee. pose proof (hmstep_owned fuel c H P Na s xz s' T K) as G. constructor.
    + apply G.
    + intros A HA. rewrite Ee. apply Kn. now apply (gr_same _ _ G).
    + intros b Hb. destruct (gr_live _ _ G b Hb) as [Q|Q]; auto. destruct (L b Q) as [|[|(A & O)]]; auto. right. right. exists A. now apply (gr_owns _ _ G).
Qed.
(** The caller's buffers that a program leaves in use. *)
Fixpoint hpbuffers {X} (fuel : nat) (p : hprog X) (Z : hmst) (s : st) : list N :=
  match p with
  | HAct c k =>
      match hmstep fuel c Z s with
      | Ok (az, s') => (if hskeeps c then [snext s] else []) ++ hpbuffers fuel (k (fst az)) (snd az) s'
      | Err _ => []
      end
  | _ => []
  end.
Lemma hmplay_live X fuel : forall (p : hprog X) U H P s xz s', fine U H s -> hmplay fuel p (H, P) s = Ok (xz, s') -> fine (U ++ hpbuffers fuel p (H, P) s) (fst (snd xz)) s'.
Proof.
  induction p as [x| |c k IH]; intros U H P s xz s' Fi E; cbn [hmplay hpbuffers] in *.
  - injection E as <- <-. cbn [fst snd]. now rewrite app_nil_r.
  - discriminate.
  - unfold bind at 1 in E. destruct (hmstep fuel c (H, P) s) as [[[a [H1 P1]] s1]|] eqn:E1; [|discriminate]. cbn [fst snd] in *.
    rewrite app_assoc. eapply IH; [|exact E]. exact (hmstep_live _ _ _ _ _ _ _ _ Fi E1).
Qed.
Theorem play_freed X fuel (p : hprog X) x s b : hplay_scope fuel p init = Ok (x, s) -> sbsize s b <> None ->
  sbsize init b <> None \/ In b (hpbuffers fuel p (hstart, []) init).
Proof.
  intros E Hb. unfold hplay_scope, bind in E. destruct (hmplay fuel p (hstart, []) init) as [[xz s1]|] eqn:E1; [|discriminate].
  destruct (release_all (rev (ha (fst (snd xz)))) s1) as [[u s2]|] eqn:E2; [|discriminate]. injection E as <- <-.
  destruct (hmplay_live X fuel p [] hstart [] init xz s1 fine_start E1) as [T Kn L]. destruct (release_all_result _ _ _ _ T E2) as (_ & _ & R2 & _).
  destruct (R2 b Hb) as [K1 K2]. destruct (L b K1) as [|[|(A & O)]]; auto. exfalso. apply (K2 A); auto. rewrite <- in_rev. apply Kn. destruct O as (ar & k & O & _). congruence.
Qed.
Theorem hclient_scope jd X (p : hprog X) x R T : correct jd -> hrplay jd p (rstart, []) = Some (x, (R, T)) ->
  exists f0, forall fuel, (f0 <= fuel)%nat -> exists s, hplay_scope fuel p init = Ok (x, s) /\
    forall b, sbsize s b <> None -> sbsize init b <> None \/ In b (hpbuffers fuel p (hstart, []) init).
Proof.
  intros J K. destruct (hclient jd J X p x R T K) as (f0 & Q). exists f0. intros fuel Hf. destruct (Q fuel Hf) as (H & P & s & Er & E & (nm & F & S) & Rl).
  assert (W : wp (release_all (rev (ha H))) s (fun _ => freed s (rev (ha H)))).
  { apply release_all_wp; [apply S| |]; rewrite (wr_ha _ _ _ Rl).
    - apply NoDup_rev. apply S.
    - intros A HA. rewrite <- in_rev in HA. apply In_nth_error in HA as (k & Hk). destruct (nth_error (ru R) k) as [u|] eqn:Eu.
      + exact (proj1 (sm_arena _ _ _ _ _ S k A u Hk Eu)).
      + exfalso. apply nth_error_None in Eu. rewrite <- (sm_la _ _ _ _ _ S) in Eu. assert (k < length (ea E))%nat by (apply nth_error_Some; congruence). lia. }
  destruct W as (u & s2 & E2 & _). exists s2. assert (Es : hplay_scope fuel p init = Ok (x, s2)).
  { unfold hplay_scope, bind. rewrite Er. cbn [snd fst]. now rewrite E2. }
  split; auto. intros b Hb. eapply play_freed; eauto.
Qed.
