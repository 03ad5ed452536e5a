(** Property C73: programs with the classes of zzzjson.hpp that react to the answers, keep texts
    and pass them on. *)
From Verif Require Import Double Base Spec Alloc Mem Dom AllocProofs Scene Hist HistRun HistSim HistStep HistAll HistJudge HistMany HistWorld HistCover Leak Budget BetaClient Keep Hpp HppAll HppClient HppCover.

(** ** C73 Programs with the classes of zzzjson.hpp may keep texts, pass them on and decide by the answers

    A program is a tree of type [hprog]: after each statement it goes on depending on the
    answer.  Statements are calls ([HApi], as in C48), taking the pointer a getter or
    Stringify gives ([HTake]), reading a text through a kept pointer ([HLook]) and passing
    a kept pointer to a method ([HGive]).  [hrplay] says what the program should see: the
    documents of C48, and a kept pointer is the text it was got for, for good. *)
Theorem C73_client : forall jd, correct jd -> forall X (p : hprog X) x R T, hrplay jd p (rstart, []) = Some (x, (R, T)) ->
  exists f0, forall fuel, (f0 <= fuel)%nat ->
  exists H P s, hmplay fuel p (hstart, []) init = Ok ((x, (H, P)), s) /\ exists E, represents R E s /\ wrel H E s.
Proof. exact hclient. Qed.
Print Assumptions C73_client.

(** At the end of the scope of such a program the destructors run without error, and nothing
    but the static texts and the buffers of the caller is in use ... *)
Theorem C73_scope : forall jd X (p : hprog X) x R T, correct jd -> hrplay jd p (rstart, []) = Some (x, (R, T)) ->
  exists f0, forall fuel, (f0 <= fuel)%nat ->
  exists s, hplay_scope fuel p init = Ok (x, s) /\
    forall b, sbsize s b <> None -> sbsize init b <> None \/ In b (hpbuffers fuel p (hstart, []) init).
Proof. exact hclient_scope. Qed.
Print Assumptions C73_scope.
(** ... also for a program outside the contract, if its scope ends at all. *)
Theorem C73_freed : forall X fuel (p : hprog X) x s b, hplay_scope fuel p init = Ok (x, s) -> sbsize s b <> None ->
  sbsize init b <> None \/ In b (hpbuffers fuel p (hstart, []) init).
Proof. exact play_freed. Qed.
Print Assumptions C73_freed.

(** A text got in the middle of a run of calls reads the same at the end of it. *)
Theorem C73_kept : forall jd cs1 g h cs2 rs R x, correct jd -> hrrun jd (cs1 ++ HC (pcall g h) :: cs2) rstart = Some (rs, R) ->
  nth_error rs (length cs1) = Some x ->
  exists f0, forall fuel, (f0 <= fuel)%nat -> exists Z s, hmplay fuel (hkeep cs1 g h cs2) (hstart, []) init = Ok (((x, x), Z), s).
Proof. exact hkept. Qed.
Print Assumptions C73_kept.

(** The contract, call by call: what zzzjson.h asks for, and room for the wrapper objects. *)
Theorem C73_contract : forall jd, correct jd -> forall X (p : hprog X), hrespects jd p (rstart, []) ->
  exists x R T, hrplay jd p (rstart, []) = Some (x, (R, T)) /\ exists f0, forall fuel, (f0 <= fuel)%nat ->
  exists s, hplay_scope fuel p init = Ok (x, s) /\
    forall b, sbsize s b <> None -> sbsize init b <> None \/ In b (hpbuffers fuel p (hstart, []) init).
Proof. exact hcontract_ok. Qed.
Print Assumptions C73_contract.

(** The program sees what the same program written with zzzjson.h sees: [in_c] puts the function
    for each method, zj_NewValue with the allocator of the object for NewValue(), and
    zj_SetNumStrLen for SetNumStrLenFast. *)
Theorem C73_same : forall jd, correct jd -> forall X (p : hprog X) x R T, hrplay jd p (rstart, []) = Some (x, (R, T)) ->
  exists f0, forall fuel, (f0 <= fuel)%nat -> exists Z s Z' s', hmplay fuel p (hstart, []) init = Ok ((x, Z), s) /\
    pmplay fuel (in_c jd p (rstart, [])) (estart, []) init = Ok ((x, Z'), s').
Proof. exact in_c_same. Qed.
Print Assumptions C73_same.
(** Conversely a program [p] for zzzjson.h that does without zj_SetNumStrLenFast can be ported
    by putting the methods for the functions ([cstyle]). *)
Theorem C73_ported : forall jd, correct jd -> forall X (p : pprog X) x R T, plainly p -> hrplay jd (cstyle p) (rstart, []) = Some (x, (R, T)) ->
  exists f0, forall fuel, (f0 <= fuel)%nat -> exists Z s Z' s', hmplay fuel (cstyle p) (hstart, []) init = Ok ((x, Z), s) /\
    pmplay fuel p (estart, []) init = Ok ((x, Z'), s').
Proof. exact cstyle_same. Qed.
Print Assumptions C73_ported.

(** A program that goes on only if the text is an object.  It keeps the printed text, the key
    and a view of the number of the first member, removes the member, parses the printed text
    into a new object made by NewValue(), and puts the view into another one with
    SetNumStrLenFast. *)
Definition wsaver (t : bytes) : hprog (list answer) :=
  HAct (HApi (HC CNewAllocator)) (fun _ => HAct (HApi (HC (CNewValue 0))) (fun _ => HAct (HApi (HC (CParse PCopy 0 t []))) (fun _ =>
  HAct (HApi (HC (CGetType 0))) (fun ty => match ty with
  | Type_ (Some TObject) =>
      HAct (HTake PPrint 0) (fun _ => HAct (HApi (HC (CBegin 0))) (fun _ =>
      HAct (HTake PKey 1) (fun _ => HAct (HTake (PViewText true) 1) (fun _ =>
      HAct (HGive TDelete 0 1) (fun a1 => HAct (HApi (HNew 1)) (fun _ => HAct (HGive (TParse true) 2 0) (fun a2 => HAct (HGive TFind 2 1) (fun a3 =>
      HAct (HApi (HNew 3)) (fun _ => HAct (HGive (TText true true) 4 2) (fun a4 => HAct (HGive (TKey false) 4 1) (fun a5 =>
      HAct (HLook 0) (fun a6 => HAct (HApi (HC (CStringify 0))) (fun a7 => HAct (HApi (HC (CStringify 4))) (fun a8 => HAct (HApi (HC (CGetKey false 4))) (fun a9 =>
      HRet [a1; a2; a3; a4; a5; a6; a7; a8; a9])))))))))))))))
  | _ => HRet []
  end)))).
Definition wsaver_text : bytes := txt "{""k"":-7}".
Definition wsaver_answers : list answer :=
  [Bool true; Bool true; Value (Some 3%nat); Bool true; Bool true; Text (Some wsaver_text); Text (Some (txt "{}")); Text (Some (txt "-7")); Text (Some (txt "k"))].
Example C73_case : option_map fst (hrplay the_judge (wsaver wsaver_text) (rstart, [])) = Some wsaver_answers /\
  option_map fst (hrplay the_judge (wsaver (txt "[1]")) (rstart, [])) = Some [].
Proof. vm_compute. auto. Qed.
(** All its objects and memory are gone at the end of its scope. *)
Example C73_run : (match hplay_scope 500 (wsaver wsaver_text) init with
    Ok (x, s) => Some (x, map (fun b => is_some (sbsize s b)) [1; 2; 3; 4; 5; 6; 7; 8], hpbuffers 500 (wsaver wsaver_text) (hstart, []) init) | Err _ => None end)
  = Some (wsaver_answers, [false; false; false; false; false; false; false; false], []).
Proof. vm_compute. reflexivity. Qed.
Example C73_same_case : match pmplay 500 (in_c the_judge (wsaver wsaver_text) (rstart, [])) (estart, []) init with Ok ((x, _), _) => x | Err _ => [] end = wsaver_answers.
Proof. vm_compute. reflexivity. Qed.
(** A C program that puts the text of the first member of an object, if it has one, into a new
    value. *)
Definition porter (t : bytes) : pprog (list answer) :=
  PAct (PApi CNewAllocator) (fun _ => PAct (PApi (CNewValue 0)) (fun _ => PAct (PApi (CParse PCopy 0 t [])) (fun _ => PAct (PApi (CBegin 0)) (fun b => match b with
  | Value (Some h) => PAct (PTake (PViewText false) h) (fun _ => PAct (PApi (CNewValue 0)) (fun _ => PAct (PGive (TText false true) 2 0) (fun a =>
      PAct (PApi (CStringify 2)) (fun d => PRet [a; d]))))
  | a => PRet [a]
  end)))).
Example C73_ported_case : plainly (porter (txt "{""k"":""a""}")) /\
  option_map fst (hrplay the_judge (cstyle (porter (txt "{""k"":""a""}"))) (rstart, [])) = Some [Bool true; Text (Some (txt """a"""))] /\
  option_map fst (hrplay the_judge (cstyle (porter (txt "{}"))) (rstart, [])) = Some [Value None].
Proof.
  split; [|split; vm_compute; reflexivity]. cbn. repeat (split; [reflexivity|intro]). destruct a2 as [| | | | | | | |[h|]|]; cbn; intuition.
Qed.
(** The printed text of a document that is changed, printed again and copied. *)
Definition wsaved_before : list hcall := [HC CNewAllocator; HC (CNewValue 0); HC (CParse PCopy 0 (txt "[""ab""]") []); HC (CBegin 0)].
Definition wsaved_after : list hcall := [HC (CSetText true KLenFast 1 (txt "7")); HC (CGetText true false 1); HC (CStringify 0); HC (CCopy 0); HNew 0; HC (CSetNull 0)].
Example C73_kept_case : match hrrun the_judge (wsaved_before ++ HC (pcall PPrint 0) :: wsaved_after) rstart with
  | Some (rs, _) => nth_error rs 4 = Some (Text (Some (txt "[""ab""]"))) /\ nth_error rs 7 = Some (Text (Some (txt "[7]")))
  | None => False end.
Proof. vm_compute. auto. Qed.
(** A program that respects the contract: the text of a number is kept and set in an object
    made by NewValue(). *)
Definition wlender : list hstmt :=
  [HApi (HC CNewAllocator); HApi (HC (CNewValue 0)); HApi (HC (CSetText true KCopy 0 (txt "7"))); HTake (PText true) 0;
   HApi (HNew 0); HGive (TText true false) 1 0; HLook 0; HApi (HC (CGetText true false 1))].
Definition wlent (Z : pst) := (look (fst Z) 0, look (fst Z) 1, ru (fst Z), snd Z).
Definition wat (k : nat) := option_map (fun x => wlent (snd x)) (hrplay the_judge (hseq (firstn k wlender)) (rstart, [])).
Definition wseven (i : N) : option (option (N * tnode) * nat) := Some (Some (i, mkT None (NNum [55]) None true true false), 0%nat).
Definition wlent_at :=
  [(None, None, [], []); (None, None, [0], []); (Some (None, 0%nat), None, [24], []); (wseven 0, None, [97], []); (wseven 0, None, [99], [RC [55]]);
   (wseven 0, Some (None, 0%nat), [123], [RC [55]]); (wseven 0, wseven 1, [196], [RC [55]]); (wseven 0, wseven 1, [196], [RC [55]])].
Remark see_wlent k l Z : nth_error wlent_at k = Some l -> hrplay the_judge (hseq (firstn k wlender)) (rstart, []) = Some (tt, Z) -> wlent Z = l.
Proof.
  intros H E. assert (K : wat k = Some l).
  { do 8 (destruct k as [|k]; [rewrite <- H; vm_compute; reflexivity|]). destruct k; discriminate H. }
  unfold wat in K. rewrite E in K. now injection K.
Qed.
Remark wroom_at R u n : ru R = [u] -> (u + n <=? two30) = true -> roomy R 0 n.
Proof. intros H L. exists u. rewrite H. split; [reflexivity|now apply N.leb_le]. Qed.
Example C73_contract_case : hrespects the_judge (hseq wlender) (rstart, []).
Proof.
  apply hseq_respects. intros k c Z En E. pose proof (fun l H => see_wlent k l Z H E) as K. clear E.
  destruct k as [|[|[|[|[|[|[|[|k]]]]]]]]; [..|destruct k; discriminate En]; cbn [nth_error wlender] in En; injection En as <-;
    specialize (K _ eq_refl); injection K as K1 K2 K3 K4; cbn [hscontract hcontract contract as_c pcall].
  - split; exact Logic.I.
  - split; (eapply wroom_at; [exact K3|vm_compute; reflexivity]).
  - split; [|exact Logic.I]. exists None, 0%nat. split; [exact K1|]. split; [split; [vm_compute; intuition discriminate|vm_compute; reflexivity]|].
    eapply wroom_at; [exact K3|vm_compute; reflexivity].
  - split; [|exact Logic.I]. do 2 eexists. split; [exact K1|]. right. eapply wroom_at; [exact K3|vm_compute; reflexivity].
  - assert (H0 : exists o, nth_error (rh (fst Z)) 0 = Some (o, 0%nat)).
    { unfold look in K1. destruct (nth_error (rh (fst Z)) 0) as [[[i|] A]|]; try discriminate K1.
      destruct (rG (fst Z) i); [|discriminate K1]. exists (Some i). now injection K1 as _ _ ->. }
    destruct H0 as (o & H0). exists o, 0%nat. split; [exact H0|]. eapply wroom_at; [exact K3|vm_compute; reflexivity].
  - exists (RC [55]), false, [55], (CSetText true KCopy 1 [55]). split; [now rewrite K4|]. split; [reflexivity|]. split; [reflexivity|]. split; [|exact Logic.I].
    exists None, 0%nat. split; [exact K2|]. split; [split; [vm_compute; intuition discriminate|vm_compute; reflexivity]|]. eapply wroom_at; [exact K3|vm_compute; reflexivity].
  - rewrite K4. apply le_n.
  - split; [|exact Logic.I]. do 2 eexists. split; [exact K2|]. right. eapply wroom_at; [exact K3|vm_compute; reflexivity].
Qed.
