(** Properties C52 and C53: programs that decide by the answers, and the samples. *)
From Verif Require Import Double Base Spec PureParse Alloc Mem Dom AllocProofs ParseTop PrintFacts Scene Vocab SetFacts Hist HistRun HistSim HistStep HistAll HistTree HistDocs HistJudge Work
  Client Sample SampleRun.

(** ** C52 Programs that decide by the answers what to call next

    C35 is about fixed lists of calls.  A [prog] goes on according to the answer of each
    call, and may pass the pointer one call returns to the next call (Client.v).  If the
    program runs on the reference, where a document is a tree and a value object the number
    of a node, it runs on the code, gives the same result, and leaves the same documents
    and value objects; nothing is read or written outside the memory the library owns, and
    no loop goes round more often than [pmost] says. *)
Theorem C52_client : forall jd, correct jd -> forall X (p : prog X) x R, rplay jd p rstart = Some (x, R) ->
  forall fuel, (pmost jd p rstart <= fuel)%nat -> exists E s, mplay fuel p estart init = Ok ((x, E), s) /\ represents R E s.
Proof. exact client. Qed.
Print Assumptions C52_client.

(** At every point of such a program every value has a document, and it is valid. *)
Theorem C52_documents : forall jd, correct jd -> forall X (p : prog X) x R, rplay jd p rstart = Some (x, R) ->
  forall i, rG R i <> None -> exists j, reads_as R i = Some j /\ json_ok j.
Proof. intros jd J X p x R H i. apply docs_read. now destruct (client_docs jd J p x R H). Qed.
Print Assumptions C52_documents.

(** A program that counts the strings in an array: it goes on as long as there is a next
    member, and decides by the type of each. *)
Definition count_strings : prog nat :=
  let loop := fix loop (m : nat) (n : nat) (a : answer) : prog nat :=
    match a, m with
    | Value None, _ => Ret n
    | Value (Some h), S m' => Act (Api (CGetType h)) (fun t =>
        Act (Api (CNext h)) (loop m' (match t with Type_ (Some TString) => S n | _ => n end)))
    | _, _ => Stuck
    end in
  Act (Api CNewAllocator) (fun _ => Act (Api (CNewValue 0)) (fun _ =>
    Act (Api (CParse PCopy 0 (txt "[1,""a"",[],""b""]") [])) (fun _ => Act (Api (CBegin 0)) (loop 9%nat 0%nat)))).
Example C52_client_case : option_map fst (rplay the_judge count_strings rstart) = Some 2%nat.
Proof. vm_compute. reflexivity. Qed.
Example C52_client_run : exists E s, mplay (pmost the_judge count_strings rstart) count_strings estart init = Ok ((2%nat, E), s).
Proof.
  pose proof C52_client_case as H. destruct (rplay the_judge count_strings rstart) as [[x R]|] eqn:E; [|discriminate]. injection H as ->.
  destruct (C52_client the_judge judge_correct _ _ _ _ E _ (le_n _)) as (E' & s & K & _). eauto.
Qed.

(** ** C53 The deep copy of the samples

    GetAndSet (sample/c/sample.c, [len] = false; sample/c++/sample.cpp, [len] = true) copies
    a document member by member through the public calls.

    The program of the samples, for any text in place of the literal: if the text is JSON,
    and no string or key in it has an escape of four hexadecimal digits from E000 on, the
    copy prints as the document does.  (The bound on the length keeps the allocator below
    2^30 bytes; [n] bounds the recursion and the loops of the sample, [fuel] those of the
    library.) *)
Theorem C53_main : forall len t j, json_text t j -> settable j -> lenN t <= 3000000 ->
  forall n, (length t <= n)%nat -> forall fuel, (2 * length t <= fuel)%nat ->
  exists E s, mplay fuel (sample_main len n t) estart init = Ok ((Some (Text (Some (print j))), E), s).
Proof. exact main_copies. Qed.
Print Assumptions C53_main.

(** A text that is not JSON is refused (for [cut_literal] see C03). *)
Theorem C53_refuses : forall len t, ~ In 0 t -> (forall j, ~ json_text t j) -> ~ cut_literal t 0 -> 72 * lenN t + 176 <= two30 ->
  forall n fuel, exists E s, mplay fuel (sample_main len n t) estart init = Ok ((None, E), s).
Proof. exact main_refuses. Qed.
Print Assumptions C53_refuses.

(** The copy works anywhere: after any program [p], from any value object [src] into any
    value object [des] that has no document yet, whatever their allocators.  Afterwards
    [des] prints as [src] did, and any value object [h] that had a document, [src] among
    them, prints as before. *)
Theorem C53_anywhere : forall jd X (p : prog X) x R len n A As src des i j h ih Ah jh, correct jd -> rplay jd p rstart = Some (x, R) ->
  nth_error (rh R) src = Some (Some i, As) -> reads_as R i = Some j -> settable j -> (values j <= n)%nat -> nth_error (rh R) des = Some (None, A) ->
  nth_error (rh R) h = Some (Some ih, Ah) -> reads_as R ih = Some jh ->
  (forall u, In u (ru R) -> u + copy_cost len j + print_cost (lenN (print j)) + print_cost (lenN (print jh)) <= two30) ->
  exists f0, forall fuel, (f0 <= fuel)%nat -> exists E s,
    mplay fuel (then_copy p len n A src des h) estart init = Ok (((Text (Some (print j)), Text (Some (print jh))), E), s).
Proof. exact @copy_after. Qed.
Print Assumptions C53_anywhere.

(** The cost is linear in the length of the text. *)
Theorem C53_cost : forall len j, json_ok j -> copy_cost len j <= (if len then 233 else 74) * lenN (print j).
Proof. exact cost_print. Qed.
Print Assumptions C53_cost.

(** The condition on the escapes is needed: the setters refuse them (C10, C12), and the samples
    stop there without saying so.  From the array of a string with such an escape and a
    number an empty array is made. *)
Definition escaped_text : bytes := txt "[""\uE000"",1]".
Theorem C53_escape_refuted : exists t j, json_text t j /\ forall len, exists E s,
  mplay 24 (sample_main len 12 t) estart init = Ok ((Some (Text (Some (txt "[]"))), E), s) /\ print j <> txt "[]".
Proof.
  exists escaped_text, (JArr [JStr (txt "\uE000"); JNum (txt "1")]). split.
  - apply (jd_json _ judge_correct); [|vm_compute; reflexivity]. vm_compute. intuition discriminate.
  - intro len. assert (H : forall l, option_map fst (rplay the_judge (sample_main l 12 escaped_text) rstart) = Some (Some (Text (Some (txt "[]")))) /\ (pmost the_judge (sample_main l 12 escaped_text) rstart <= 24)%nat).
    { intros [|]; (split; [vm_compute; reflexivity|apply Nat.leb_le; vm_compute; reflexivity]). }
    destruct (H len) as [H1 H2]. destruct (rplay the_judge (sample_main len 12 escaped_text) rstart) as [[x R]|] eqn:E; [|discriminate]. injection H1 as ->.
    destruct (client the_judge judge_correct _ _ _ _ E 24%nat H2) as (E' & s & K & _). exists E', s. split; [exact K|vm_compute; discriminate].
Qed.
Print Assumptions C53_escape_refuted.

(** Exactly: [copied ok] says what becomes of a document, where [ok] tells which strings have no
    such escape.  An array ends before a string that has one, in an object null stands for it, and an
    object ends before a key that has one; a string by itself is not copied at all. *)
Theorem C53_exactly : forall ok len t j, (forall b, strbody b -> (ok b = true <-> ~ e000_escape b)) -> json_text t j -> lenN t <= 3000000 ->
  forall n, (length t <= n)%nat -> forall fuel, (2 * length t <= fuel)%nat ->
  exists E s, mplay fuel (sample_main len n t) estart init = Ok ((Some (Text (Some (oprint (copied ok j)))), E), s).
Proof. exact main_exactly. Qed.
Print Assumptions C53_exactly.
(** ... and anywhere; the document itself and all others stay. *)
Theorem C53_anywhere_exactly : forall jd ok X (p : prog X) x R len n A As src des i j h ih Ah jh, correct jd -> (forall b, strbody b -> (ok b = true <-> ~ e000_escape b)) ->
  rplay jd p rstart = Some (x, R) ->
  nth_error (rh R) src = Some (Some i, As) -> reads_as R i = Some j -> (values j <= n)%nat -> nth_error (rh R) des = Some (None, A) ->
  nth_error (rh R) h = Some (Some ih, Ah) -> reads_as R ih = Some jh ->
  (forall u, In u (ru R) -> u + copy_cost len j + print_cost (lenN (print j)) + print_cost (lenN (print jh)) <= two30) ->
  exists f0, forall fuel, (f0 <= fuel)%nat -> exists E s,
    mplay fuel (then_copy p len n A src des h) estart init = Ok (((Text (Some (oprint (copied ok j))), Text (Some (print jh))), E), s).
Proof. exact @copy_after_exactly. Qed.
Print Assumptions C53_anywhere_exactly.
Example C53_exactly_ok : forall b, strbody b -> (o_str the_judge b = true <-> ~ e000_escape b).
Proof. exact (judge_right the_judge judge_correct). Qed.
Definition losing_text : bytes := txt "{""a"":""\uE000"",""b"":[1,""\uFFFF"",2],""\uE00F"":3,""c"":4}".
Example C53_exactly_case : match o_json the_judge losing_text with Some j => oprint (copied (o_str the_judge) j) | None => [] end = txt "{""a"":null,""b"":[1]}".
Proof. vm_compute. reflexivity. Qed.

(** The text of the samples is such a text. *)
Definition sample_text : bytes := txt "[{""key"":true},false,{""key1"":true},[null,false,[],true],["""",123,""str""],null]".
Example C53_main_case : exists j, json_text sample_text j /\ settable j /\ print j = sample_text /\ lenN sample_text <= 3000000.
Proof.
  destruct (o_json the_judge sample_text) as [j|] eqn:E; [|vm_compute in E; discriminate]. exists j. split.
  - apply (jd_json _ judge_correct); [|exact E]. vm_compute. intuition discriminate.
  - vm_compute in E. injection E as <-. split; [apply settableb_ok; vm_compute; reflexivity|]. split; [vm_compute; reflexivity|]. vm_compute. discriminate.
Qed.
Example C53_main_run : forall len, exists E s, mplay 200 (sample_main len 100 sample_text) estart init = Ok ((Some (Text (Some sample_text)), E), s).
Proof.
  intro len. destruct C53_main_case as (j & P & S & Pr & L). destruct (C53_main len _ _ P S L 100%nat) with (fuel := 200%nat) as (E & s & K); [apply Nat.leb_le; vm_compute; reflexivity..|].
  rewrite Pr in K. eauto.
Qed.
Example C53_refuses_case : ~ In 0 (txt "[1,") /\ (forall j, ~ json_text (txt "[1,") j) /\ ~ cut_literal (txt "[1,") 0.
Proof.
  assert (N0 : ~ In 0 (txt "[1,")) by (vm_compute; intuition discriminate). split; auto. split.
  - intros j H. apply (jd_json _ judge_correct) in H; auto. vm_compute in H. discriminate.
  - intro H. apply (jd_cut _ judge_correct) in H; auto. vm_compute in H. discriminate.
Qed.
(** Two allocators: the document is in the first, the copy is made in the second. *)
Definition two_arenas : prog nat :=
  Act (Api CNewAllocator) (fun _ => Act (Api CNewAllocator) (fun _ => Act (Api (CNewValue 0)) (fun _ => Act (Api (CNewValue 1)) (fun _ =>
    Act (Api (CParse PCopy 0 (txt "{""a"":[1]}") [])) (fun _ => Ret 0%nat))))).
Example C53_anywhere_case : exists x R i j, rplay the_judge two_arenas rstart = Some (x, R) /\ nth_error (rh R) 0 = Some (Some i, 0%nat) /\ reads_as R i = Some j /\ settable j /\
  (values j <= 9)%nat /\ nth_error (rh R) 1 = Some (None, 1%nat) /\
  (forall u, In u (ru R) -> u + copy_cost false j + print_cost (lenN (print j)) + print_cost (lenN (print j)) <= two30).
Proof.
  destruct (rplay the_judge two_arenas rstart) as [[x R]|] eqn:E; [|apply (f_equal is_some) in E; vm_compute in E; discriminate].
  assert (H : forall Y (f : rst -> Y), f R = match option_map (fun xr => f (snd xr)) (rplay the_judge two_arenas rstart) with Some y => y | None => f R end) by (intros; now rewrite E).
  exists x, R, 0, (JObj [(txt "a", JArr [JNum (txt "1")])]).
  split; [reflexivity|]. split; [rewrite (H _ (fun R => nth_error (rh R) 0)); vm_compute; reflexivity|]. split; [rewrite (H _ (fun R => reads_as R 0)); vm_compute; reflexivity|].
  split; [apply settableb_ok; vm_compute; reflexivity|]. split; [apply Nat.leb_le; vm_compute; reflexivity|]. split; [rewrite (H _ (fun R => nth_error (rh R) 1)); vm_compute; reflexivity|].
  intros u Hu. rewrite (H _ ru) in Hu. vm_compute in Hu. destruct Hu as [<-|[<-|[]]]; vm_compute; discriminate.
Qed.
