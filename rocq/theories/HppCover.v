(** The contract of programs with the classes of zzzjson.hpp (HppClient.v), call by call, and
    texts kept along fixed lists of calls. *)
From Verif Require Import Base Spec AllocProofs Mem Scene CopyProofs Hist HistRun HistSim HistStep HistAll HistMany HistWorld HistDocs HistCover Budget BetaClient Keep Hpp HppAll HppClient.
From Coq Require Import ZifyN.

(** What has to be seen to before a call: what the function of zzzjson.h asks for, and 8 bytes
    more where a wrapper object is made. *)
Definition hcontract (hc : hcall) (R : rst) : Prop :=
  match hc with
  | HNew h => exists o A, nth_error (rh R) h = Some (o, A) /\ roomy R A 24
  | HC c => contract (as_c c) R /\
      match c with
      | CNewValue A => roomy R A 24
      | CObjGet _ h _ | CArrayGet h _ | CBegin h | CNext h => at_value R h (fun _ A => roomy R A 24)
      | CCopy h => at_value R h (fun w A => forall i t j, w = Some (i, t) -> content R i j -> roomy R A (96 + icost (tkey t, j)))
      | _ => True
      end
  end.
Definition hscontract (c : hstmt) (Z : pst) : Prop :=
  match c with
  | HApi c => hcontract c (fst Z)
  | HTake g h => hcontract (HC (pcall g h)) (fst Z)
  | HLook k => (k < length (snd Z))%nat
  | HGive u h k => exists r view t c, nth_error (snd Z) k = Some r /\ rtext r = Some (view, t) /\ tcall u view h t = Some c /\ hcontract (HC c) (fst Z)
  end.
Fixpoint hrespects {X} (jd : judge) (p : hprog X) (Z : pst) : Prop :=
  match p with
  | HRet _ => True
  | HStuck => False
  | HAct c k => hscontract c Z /\ forall a Z1, hsstep jd c Z = Some (a, Z1) -> hrespects jd (k a) Z1
  end.

(** *** What a call that makes an object takes *)
Lemma made jd c R h R1 : makes_value c = true -> rstep jd c R = Some (Value (Some h), R1) ->
  exists o A n R0, nth_error (rh R1) h = Some (o, A) /\ spend R A n = Some R0 /\ ru R1 = ru R0 /\
    match c with
    | CNewValue A' => A = A' /\ n = 16
    | CCopy h' => exists i t j, look R h' = Some (Some (i, t), A) /\ content R i j /\ n = 88 + icost (tkey t, j)
    | CObjGet _ h' _ | CArrayGet h' _ | CBegin h' | CNext h' => n = 16 /\ exists w, look R h' = Some (w, A)
    | _ => True
    end.
Proof.
  intros V St.
  assert (G : forall A o, give R A o = Some (Value (Some h), R1) -> exists o' R0, nth_error (rh R1) h = Some (o', A) /\ spend R A 16 = Some R0 /\ ru R1 = ru R0).
  { intros A o K. unfold give in K. destruct (spend R A 16) as [R0|] eqn:Sp; [|discriminate]. destruct o as [c0|]; [|discriminate]. injection K as <- <-.
    exists (Some c0), R0. cbn [new_value rh ru]. split; auto. now rewrite nth_error_app2, Nat.sub_diag by auto. }
  destruct c; try discriminate V; cbn [rstep] in St.
  - destruct (spend R A 16) as [R0|] eqn:Sp; [|discriminate]. injection St as <- <-. exists None, A, 16, R0. cbn [new_value rh ru].
    split; [now rewrite nth_error_app2, Nat.sub_diag by auto|]. auto.
  - destruct (look R h0) as [[[[i t]|] A]|] eqn:L; try discriminate St; [|destruct (_ && _); discriminate St].
    destruct (_ && _); [|discriminate]. destruct (is_cont true (tvalue t)); [|discriminate]. destruct (_ || _); [|discriminate].
    destruct (G _ _ St) as (o & R0 & G1 & G2 & G3). exists o, A, 16, R0. eauto 8.
  - destruct (look R h0) as [[[[i' t]|] A]|] eqn:L; try discriminate St. destruct (_ <? _); [|discriminate]. destruct (is_cont false (tvalue t)); [|discriminate].
    destruct (G _ _ St) as (o & R0 & G1 & G2 & G3). exists o, A, 16, R0. eauto 8.
  - destruct (look R h0) as [[[[i' t]|] A]|] eqn:L; try discriminate St. destruct (G _ _ St) as (o & R0 & G1 & G2 & G3). exists o, A, 16, R0. eauto 8.
  - destruct (look R h0) as [[[[i' t]|] A]|] eqn:L; try discriminate St. destruct (tpar t) as [p|].
    + destruct (rG R p) as [tp|]; [|discriminate]. destruct (split_at i' (nkids (tvalue tp))) as [[a b]|]; [|discriminate].
      destruct (G _ _ St) as (o & R0 & G1 & G2 & G3). exists o, A, 16, R0. eauto 8.
    + destruct (G _ _ St) as (o & R0 & G1 & G2 & G3). exists o, A, 16, R0. eauto 8.
  - destruct (look R h0) as [[[[i t]|] A]|] eqn:L; try discriminate St; [|destruct (spend R A 16); discriminate].
    destruct (reads_as R i) as [j|] eqn:Rd; [|discriminate]. destruct (spend R A (88 + icost (tkey t, j))) as [R0|] eqn:Sp; [|discriminate]. injection St as <- <-.
    exists (Some (rn R0)), A, (88 + icost (tkey t, j)), R0. unfold duplicate, new_value. destruct (plant (rn R0) j (rn R0 + 1)) as [[v g] n'] eqn:Pl. cbn [rh ru].
    split; [now rewrite nth_error_app2, Nat.sub_diag by auto|]. split; auto. split; auto. exists i, t, j. split; auto. split; auto. eexists. exact Rd.
Qed.
Lemma setn_same (l : list N) A x u : nth_error l A = Some u -> nth_error (setn A x l) A = Some x.
Proof. revert A. induction l as [|y l IH]; intros [|A] K; try discriminate; cbn [setn nth_error]; auto. Qed.
Lemma wrapped_room R A n R0 R1 h o : spend R A n = Some R0 -> ru R1 = ru R0 -> nth_error (rh R1) h = Some (o, A) -> roomy R A (n + 8) ->
  exists R2, wrapped (Value (Some h), R1) = Some (Value (Some h), R2).
Proof.
  intros Sp Er Eh (u & Hu & L). unfold spend in Sp. rewrite Hu in Sp. destruct (_ <=? _); [|discriminate]. injection Sp as <-. cbn [ru] in Er.
  unfold wrapped. cbn [fst snd]. rewrite Eh. unfold spend. rewrite Er, (setn_same _ _ _ _ Hu).
  replace (u + n + sizeof_wrapper <=? two30) with true by (symmetry; apply N.leb_le; unfold sizeof_wrapper; lia). eauto.
Qed.

Section Cover.
Variable jd : judge.
Hypothesis J : correct jd.
Definition hreached (R : rst) : Prop := exists cs rs, hrrun jd cs rstart = Some (rs, R).
Lemma hrrun_snoc : forall cs c R rs R1 x R2, hrrun jd cs R = Some (rs, R1) -> hrstep jd c R1 = Some (x, R2) -> hrrun jd (cs ++ [c]) R = Some (rs ++ [x], R2).
Proof.
  induction cs as [|d cs IH]; intros c R rs R1 x R2 K1 K2; cbn [app hrrun] in *.
  - injection K1 as <- <-. now rewrite K2.
  - destruct (hrstep jd d R) as [[y R3]|]; [|discriminate]. destruct (hrrun jd cs R3) as [[ys R4]|] eqn:E; [|discriminate]. injection K1 as <- <-.
    now rewrite (IH _ _ _ _ _ _ E K2).
Qed.
Lemma hreached_step R c x R' : hreached R -> hrstep jd c R = Some (x, R') -> hreached R'.
Proof. intros (cs & rs & K) St. exists (cs ++ [c]), (rs ++ [x]). eapply hrrun_snoc; eauto. Qed.
Lemma hreached_docs R : hreached R -> docs_ok R.
Proof.
  intros (cs & rs & K). destruct (plains_run jd cs rstart rstart rs R (leaner_refl _) K) as (R2 & K2 & u & -> & _).
  destruct (docs_program jd _ _ _ J K2) as [D1 D2 D3]. now constructor.
Qed.
Lemma hcovered hc R : docs_ok R -> hcontract hc R -> exists x R', hrstep jd hc R = Some (x, R').
Proof.
  intros D C. assert (P : exists p, plain hc R = Some p /\ contract p R /\
    forall h R1, makes_value p = true -> rstep jd p R = Some (Value (Some h), R1) -> exists R2, wrapped (Value (Some h), R1) = Some (Value (Some h), R2)).
  { destruct hc as [c|h0]; cbn [hcontract plain] in *.
    - destruct C as [C X]. exists (as_c c). split; auto. split; auto. intros h R1 V St. destruct (made jd (as_c c) R h R1 V St) as (o & A & n & R0 & M1 & M2 & M3 & M4).
      apply (wrapped_room R A n R0 R1 h o M2 M3 M1). rewrite as_c_plain in V. destruct c; try discriminate V; cbn [as_c] in M4.
      + destruct M4 as [-> ->]. exact X.
      + destruct M4 as [-> (w & L)]. destruct X as (w' & A' & L' & X). rewrite L in L'. injection L' as <- <-. exact X.
      + destruct M4 as [-> (w & L)]. destruct X as (w' & A' & L' & X). rewrite L in L'. injection L' as <- <-. exact X.
      + destruct M4 as [-> (w & L)]. destruct X as (w' & A' & L' & X). rewrite L in L'. injection L' as <- <-. exact X.
      + destruct M4 as [-> (w & L)]. destruct X as (w' & A' & L' & X). rewrite L in L'. injection L' as <- <-. exact X.
      + destruct M4 as (i & t & j & L & Cj & ->). destruct X as (w' & A' & L' & X). rewrite L in L'. injection L' as <- <-.
        destruct (X i t j eq_refl Cj) as (u & Hu & Lu). exists u. split; auto. lia.
    - destruct C as (o0 & A0 & E0 & X). rewrite E0. exists (CNewValue A0). split; auto. split; [destruct X as (u & Hu & Lu); exists u; split; auto; lia|].
      intros h R1 V St. destruct (made jd (CNewValue A0) R h R1 V St) as (o & A & n & R0 & M1 & M2 & M3 & -> & ->). exact (wrapped_room R A0 16 R0 R1 h o M2 M3 M1 X). }
  destruct P as (p & Ep & Cp & W). unfold hrstep. rewrite Ep. destruct (covered jd J p R D Cp) as (x & R1 & St). rewrite St. destruct (makes_value p) eqn:V; [|eauto].
  destruct x as [| | | | | | | |[h|]|]; try (unfold wrapped; cbn [fst snd]; now eauto). destruct (W h R1 eq_refl St) as (R2 & ->). eauto.
Qed.
Lemma hscovered c R T : hreached R -> hscontract c (R, T) -> exists a R' T', hsstep jd c (R, T) = Some (a, (R', T')) /\ hreached R'.
Proof.
  intros Re C. assert (Q : forall hc, hcontract hc R -> exists a R', hrstep jd hc R = Some (a, R') /\ hreached R').
  { intros hc K. destruct (hcovered hc R (hreached_docs R Re) K) as (a & R' & E). exists a, R'. split; auto. eapply hreached_step; eauto. }
  destruct c as [c|g h|k|u h k]; cbn [hscontract hsstep fst snd] in *; unfold hrcall; cbn [fst snd].
  - destruct (Q _ C) as (a & R' & -> & Re'). eauto 6.
  - destruct (Q _ C) as (a & R' & -> & Re'). eauto 6.
  - destruct (nth_error T k) as [r|] eqn:E; [eauto 6|]. apply nth_error_None in E. exfalso. apply (Nat.lt_irrefl k). eapply Nat.lt_le_trans; eauto.
  - destruct C as (r & view & t & c & E1 & E2 & E3 & C). rewrite E1, E2, E3. destruct (Q _ C) as (a & R' & -> & Re'). eauto 6.
Qed.
Lemma hrespects_runs X : forall (p : hprog X) R T, hreached R -> hrespects jd p (R, T) -> exists x R' T', hrplay jd p (R, T) = Some (x, (R', T')).
Proof.
  induction p as [x| |c k IH]; intros R T Re K; cbn [hrespects hrplay] in *; [eauto|contradiction|].
  destruct K as [C K]. destruct (hscovered c R T Re C) as (a & R1 & T1 & E & R2). rewrite E. apply IH; auto.
Qed.
Theorem hcontract_ok X (p : hprog X) : hrespects jd p (rstart, []) ->
  exists x R T, hrplay jd p (rstart, []) = Some (x, (R, T)) /\ exists f0, forall fuel, (f0 <= fuel)%nat ->
  exists s, hplay_scope fuel p init = Ok (x, s) /\ forall b, sbsize s b <> None -> sbsize init b <> None \/ In b (hpbuffers fuel p (hstart, []) init).
Proof.
  intro K. destruct (hrespects_runs X p rstart []) as (x & R & T & E); [exists [], []; reflexivity|auto|]. exists x, R, T. split; auto. eapply hclient_scope; eauto.
Qed.
End Cover.
(** Programs that do not look at the answers. *)
Fixpoint hseq (cs : list hstmt) : hprog unit := match cs with [] => HRet tt | c :: r => HAct c (fun _ => hseq r) end.
Lemma hseq_respects jd cs : forall Z0, (forall k c Z, nth_error cs k = Some c -> hrplay jd (hseq (firstn k cs)) Z0 = Some (tt, Z) -> hscontract c Z) ->
  hrespects jd (hseq cs) Z0.
Proof.
  induction cs as [|c cs IH]; intros Z0 H; cbn [hseq hrespects]; [exact Logic.I|]. split; [apply (H 0%nat c Z0); reflexivity|].
  intros a Z1 E. apply IH. intros k d Z Hk Hz. apply (H (Datatypes.S k) d Z Hk). cbn [firstn hseq hrplay]. now rewrite E.
Qed.

(** ** Texts kept along fixed lists of calls *)
Fixpoint hcalls {X} (cs : list hcall) (p : hprog X) : hprog X :=
  match cs with [] => p | c :: r => HAct (HApi c) (fun _ => hcalls r p) end.
Lemma hcalls_play jd X cs (p : hprog X) : forall R rs R' T, hrrun jd cs R = Some (rs, R') -> hrplay jd (hcalls cs p) (R, T) = hrplay jd p (R', T).
Proof.
  induction cs as [|c cs IH]; intros R rs R' T K; cbn [hrrun] in K.
  - now injection K as <- <-.
  - cbn [hcalls hrplay hsstep]. unfold hrcall. cbn [fst snd]. destruct (hrstep jd c R) as [[x R1]|]; [|discriminate].
    destruct (hrrun jd cs R1) as [[xs R2]|] eqn:E2; [|discriminate]. injection K as _ ->. eapply IH; eauto.
Qed.
Definition hkeep (cs1 : list hcall) (g : giver) (h : nat) (cs2 : list hcall) : hprog (answer * answer) :=
  hcalls cs1 (HAct (HTake g h) (fun x => hcalls cs2 (HAct (HLook 0) (fun y => HRet (x, y))))).
Lemma hrrun_cut jd cs1 : forall c cs2 R rs R', hrrun jd (cs1 ++ c :: cs2) R = Some (rs, R') ->
  exists rs1 R1 x R2 rs2, hrrun jd cs1 R = Some (rs1, R1) /\ hrstep jd c R1 = Some (x, R2) /\ hrrun jd cs2 R2 = Some (rs2, R') /\ nth_error rs (length cs1) = Some x.
Proof.
  induction cs1 as [|c1 cs1 IH]; intros c cs2 R rs R' K; cbn [app hrrun] in K.
  - destruct (hrstep jd c R) as [[x R2]|] eqn:E1; [|discriminate]. destruct (hrrun jd cs2 R2) as [[xs R3]|] eqn:E2; [|discriminate]. injection K as <- <-.
    exists [], R, x, R2, xs. auto.
  - destruct (hrstep jd c1 R) as [[x1 R1]|] eqn:E1; [|discriminate]. destruct (hrrun jd (cs1 ++ c :: cs2) R1) as [[xs R3]|] eqn:E2; [|discriminate]. injection K as <- <-.
    destruct (IH c cs2 R1 xs R3 E2) as (rs1 & Ra & x & Rb & rs2 & K1 & K2 & K3 & K4). exists (x1 :: rs1), Ra, x, Rb, rs2. cbn [hrrun length nth_error]. rewrite E1, K1. auto.
Qed.
Theorem hkept jd cs1 g h cs2 rs R x : correct jd -> hrrun jd (cs1 ++ HC (pcall g h) :: cs2) rstart = Some (rs, R) -> nth_error rs (length cs1) = Some x ->
  exists f0, forall fuel, (f0 <= fuel)%nat -> exists Z s, hmplay fuel (hkeep cs1 g h cs2) (hstart, []) init = Ok (((x, x), Z), s).
Proof.
  intros J K Hx. destruct (hrrun_cut jd _ _ _ _ _ _ K) as (rs1 & R1 & x' & R2 & rs2 & K1 & K2 & K3 & K4). assert (x' = x) as -> by congruence. clear K Hx K4.
  set (q := match x with Text (Some t) => if is_pview g then RV t else RC t | _ => RNull end).
  assert (Tx : exists o, x = Text o).
  { assert (V : makes_value (pcall g h) = false) by now destruct g. apply (hrstep_plain jd _ _ _ _ V) in K2. replace (as_c (pcall g h)) with (pcall g h) in K2 by now destruct g.
    eapply gives_text; eauto. }
  destruct Tx as (o & ->).
  assert (P : hrplay jd (hkeep cs1 g h cs2) (rstart, []) = Some ((Text o, Text o), (R, [q]))).
  { unfold hkeep. rewrite (hcalls_play jd _ cs1 _ _ _ _ [] K1). cbn [hrplay hsstep fst snd app]. rewrite K2. fold q. rewrite (hcalls_play jd _ cs2 _ _ _ _ [q] K3).
    cbn. subst q. destruct o as [t|]; [destruct (is_pview g)|]; reflexivity. }
  destruct (hclient jd J _ _ _ _ _ P) as (f0 & Q). exists f0. intros fuel Hf. destruct (Q fuel Hf) as (H & Pt & s & E & _). eauto.
Qed.

(** ** The same program with the C interface
    Where the classes forward to another function, or where NewValue() knows the allocator, the
    C program says so: SetNumStrLenFast on a view is zj_SetNumStrLen (zzzjson.hpp:93-95). *)
Definition unfast (u : taker) (view : bool) : taker := match u, view with TText true _, true => TText true false | _, _ => u end.
Definition cplain (c : hstmt) (Z : pst) : option pstmt :=
  match c with
  | HApi c => option_map PApi (plain c (fst Z))
  | HTake g h => Some (PTake g h)
  | HLook k => Some (PLook k)
  | HGive u h k => match nth_error (snd Z) k with Some r => match rtext r with Some (view, _) => Some (PGive (unfast u view) h k) | None => None end | None => None end
  end.
Fixpoint in_c {X} (jd : judge) (p : hprog X) (Z : pst) : pprog X :=
  match p with
  | HRet x => PRet x
  | HStuck => PStuck
  | HAct c k => match cplain c Z, hsstep jd c Z with Some d, Some (_, Z1) => PAct d (fun a => in_c jd (k a) Z1) | _, _ => PStuck end
  end.
Lemma tcall_unfast u view h t c : tcall u view h t = Some c -> tcall (unfast u view) view h t = Some (as_c c).
Proof. destruct u as [[]|[] []| |[]| | |], view; cbn; intros [= <-]; reflexivity. Qed.
Lemma cplain_lean jd c R T R2 a R' T' : leaner R R2 -> hsstep jd c (R, T) = Some (a, (R', T')) ->
  exists d R2', cplain c (R, T) = Some d /\ psstep jd d (R2, T) = Some (a, (R2', T')) /\ leaner R' R2'.
Proof.
  intros L H. destruct c as [c|g h|k|u h k]; cbn [hsstep cplain fst snd] in *.
  - unfold hrcall in H. cbn [fst snd] in H. destruct (hrstep jd c R) as [[x R1]|] eqn:E; [|discriminate]. injection H as <- <- <-.
    destruct (plain_lean jd c R R2 x R1 L E) as (p & R2' & -> & E2 & L2). exists (PApi p), R2'. split; auto. cbn [psstep]. unfold prcall. cbn [fst snd]. now rewrite E2.
  - destruct (hrstep jd (HC (pcall g h)) R) as [[x R1]|] eqn:E; [|discriminate]. injection H as <- <- <-.
    destruct (plain_lean jd _ R R2 x R1 L E) as (p & R2' & Ep & E2 & L2). cbn [plain] in Ep. injection Ep as <-. exists (PTake g h), R2'. split; auto. cbn [psstep fst snd].
    replace (as_c (pcall g h)) with (pcall g h) in E2 by now destruct g. now rewrite E2.
  - destruct (nth_error T k) as [r|] eqn:E; [|discriminate]. injection H as <- <- <-. exists (PLook k), R2. split; auto. cbn [psstep snd]. now rewrite E.
  - destruct (nth_error T k) as [r|] eqn:E; [|discriminate]. destruct (rtext r) as [[view t]|] eqn:Er; [|discriminate]. destruct (tcall u view h t) as [c|] eqn:Et; [|discriminate].
    unfold hrcall in H. cbn [fst snd] in H. destruct (hrstep jd (HC c) R) as [[x R1]|] eqn:Ec; [|discriminate]. injection H as <- <- <-.
    destruct (plain_lean jd _ R R2 x R1 L Ec) as (p & R2' & Ep & E2 & L2). cbn [plain] in Ep. injection Ep as <-. exists (PGive (unfast u view) h k), R2'. split; auto.
    cbn [psstep fst snd]. rewrite E, Er, (tcall_unfast _ _ _ _ _ Et). unfold prcall. cbn [fst snd]. now rewrite E2.
Qed.
Lemma in_c_play jd X : forall (p : hprog X) R T R2 x R' T', leaner R R2 -> hrplay jd p (R, T) = Some (x, (R', T')) ->
  exists R2', prplay jd (in_c jd p (R, T)) (R2, T) = Some (x, (R2', T')) /\ leaner R' R2'.
Proof.
  induction p as [x0| |c k IH]; intros R T R2 x R' T' L H; cbn [hrplay in_c] in *; [injection H as <- <- <-; exists R2; auto|discriminate|].
  destruct (hsstep jd c (R, T)) as [[a [R1 T1]]|] eqn:E; [|discriminate]. destruct (cplain_lean jd c R T R2 a R1 T1 L E) as (d & R3 & -> & E2 & L2).
  cbn [prplay]. rewrite E2. apply IH; auto.
Qed.
Theorem in_c_same jd : correct jd -> forall X (p : hprog X) x R T, hrplay jd p (rstart, []) = Some (x, (R, T)) ->
  exists f0, forall fuel, (f0 <= fuel)%nat -> exists Z s Z' s', hmplay fuel p (hstart, []) init = Ok ((x, Z), s) /\
    pmplay fuel (in_c jd p (rstart, [])) (estart, []) init = Ok ((x, Z'), s').
Proof.
  intros J X p x R T H. destruct (hclient jd J _ _ _ _ _ H) as (f0 & Q). destruct (in_c_play jd X p _ _ rstart _ _ _ (leaner_refl _) H) as (R2 & H2 & _).
  exists (Nat.max f0 (ppmost jd (in_c jd p (rstart, [])) (rstart, []))). intros fuel Hf. destruct (Q fuel) as (Hh & P & s & E1 & _); [eapply Nat.max_lub_l; eauto|].
  destruct (pclient jd J _ _ _ _ _ H2 fuel) as (E & P' & s' & E2 & _); [eapply Nat.max_lub_r; eauto|]. exists (Hh, P), s, (E, P'), s'. auto.
Qed.
(** A program without NewValue() and SetNumStrLenFast is the same program. *)
Fixpoint cstyle {X} (p : pprog X) : hprog X :=
  match p with
  | PRet x => HRet x
  | PStuck => HStuck
  | PAct c k => HAct (match c with PApi c => HApi (HC c) | PTake g h => HTake g h | PLook k => HLook k | PGive u h k => HGive u h k end) (fun a => cstyle (k a))
  end.
Fixpoint plainly {X} (p : pprog X) : Prop :=
  match p with
  | PAct c k => match c with PApi c => as_c c = c | PGive (TText true true) _ _ => False | _ => True end /\ forall a, plainly (k a)
  | _ => True
  end.
Lemma unfast_same u view : match u with TText true true => False | _ => True end -> unfast u view = u.
Proof. destruct u as [|[] []| | | | |], view; cbn; intuition. Qed.
Lemma cstyle_play jd X : forall (p : pprog X) R T R2 x R' T', plainly p -> leaner R R2 -> hrplay jd (cstyle p) (R, T) = Some (x, (R', T')) ->
  exists R2', prplay jd p (R2, T) = Some (x, (R2', T')) /\ leaner R' R2'.
Proof.
  induction p as [x0| |c k IH]; intros R T R2 x R' T' P L H; cbn [hrplay cstyle plainly] in *; [injection H as <- <- <-; exists R2; auto|discriminate|].
  destruct P as [P0 P]. destruct (hsstep jd _ (R, T)) as [[a [R1 T1]]|] eqn:E; [|discriminate]. destruct (cplain_lean jd _ R T R2 a R1 T1 L E) as (d & R3 & Ed & E2 & L2).
  assert (d = c) as ->.
  { destruct c as [c|g h|k0|u h k0]; cbn [cplain plain option_map fst snd] in Ed; try (injection Ed as <-; congruence).
    destruct (nth_error T k0) as [r|]; [|discriminate]. destruct (rtext r) as [[view t]|]; [|discriminate]. injection Ed as <-. now rewrite unfast_same. }
  cbn [prplay]. rewrite E2. eapply IH; eauto.
Qed.
Theorem cstyle_same jd : correct jd -> forall X (p : pprog X) x R T, plainly p -> hrplay jd (cstyle p) (rstart, []) = Some (x, (R, T)) ->
  exists f0, forall fuel, (f0 <= fuel)%nat -> exists Z s Z' s', hmplay fuel (cstyle p) (hstart, []) init = Ok ((x, Z), s) /\
    pmplay fuel p (estart, []) init = Ok ((x, Z'), s').
Proof.
  intros J X p x R T Pl H. destruct (hclient jd J _ _ _ _ _ H) as (f0 & Q). destruct (cstyle_play jd X p _ _ rstart _ _ _ Pl (leaner_refl _) H) as (R2 & H2 & _).
  exists (Nat.max f0 (ppmost jd p (rstart, []))). intros fuel Hf. destruct (Q fuel) as (Hh & P & s & E1 & _); [eapply Nat.max_lub_l; eauto|].
  destruct (pclient jd J _ _ _ _ _ H2 fuel) as (E & P' & s' & E2 & _); [eapply Nat.max_lub_r; eauto|]. exists (Hh, P), s, (E, P'), s'. auto.
Qed.
