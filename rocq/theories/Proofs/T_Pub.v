(** Publisher socket: C21, C24 .. C26, C33 .. C36, C45, C52 (publisher side), C57 (publisher), C63. *)
From Coq Require Import List NArith Sorting.Sorted.
From Verif Require Import Model.Base Model.Map Model.Stats Model.Framed Model.WirePubSub Model.WireAuth Model.Compression Model.Handshake Model.Trie Model.Utf8 Model.PubDriver
  Spec.Wire Spec.Stream Spec.AuthCuts Spec.Topics Spec.Utf8Spec Spec.ReqSpec Spec.PubSpec.
Import ListNotations.
Open Scope N_scope.
(*HEADEND*)
From Coq Require Import ZArith ZifyBool ZifyNat ZifyN Permutation.
From Verif Require Import Spec.CompressSpec Proofs.BaseP Proofs.MapP Proofs.PubSubP Proofs.Utf8P Proofs.HandshakeP Proofs.PubDriverP Proofs.PubDriverP2 Proofs.PubDriverP3 Proofs.PubDriverP4 Proofs.PubDriverP5 Proofs.PubDriverP6 Proofs.PubDriverP7.
From Verif Require Proofs.T_Trie.
Local Open Scope N_scope.

Ltac inlog := vm_compute; repeat (first [left; reflexivity|right]).
Ltac evals := cbv zeta; repeat match goal with |- _ /\ _ => split end; vm_compute; repeat (first [reflexivity|left; reflexivity|right]).

Lemma firstn_forall2 {A B} (P : A -> B -> Prop) a b c : Forall2 P a (b ++ c) -> exists a1 a2, a = a1 ++ a2 /\ Forall2 P a1 b /\ Forall2 P a2 c.
Proof. intros H. apply Forall2_app_inv_r in H. destruct H as (a1 & a2 & H1 & H2 & ->). eauto. Qed.

(*@prop C33: in every history, the frames written on connection [cid] carry, one by one and in order, the published messages with the
    strictly increasing numbers [is] - so each at most once, in publish order - which were all "due" (read by this session
    when its filter contained their topic), with sequence numbers 0, 1, 2 ... (mod 2^32); and no due message is left out: it
    was written, or is just about to be, or the connection ended. *)
Lemma C33_in_order_no_duplicates_pf :
  forall max buf min auth co evs s log cid,
  pb_run max buf min auth co pb_init evs = (s, log) ->
  exists is,
    StronglySorted N.lt is /\ Forall (due cid log) is /\
    Forall2 (fun i m => exists p, message log i = Some p /\ carries p m) is (sent_to cid log) /\
    map ps_seq (sent_to cid log) = map (fun k => N.of_nat k mod 2 ^ 32) (seq 0 (length (sent_to cid log))) /\
    (forall i, due cid log i -> In i is \/ about_to_be_sent s log cid i \/ In cid (sub_ended log)).
Proof.
  intros max buf min auth co evs s L c R. destruct (run_tinv buf max min auth co evs s L R) as [I T].
  destruct (mget c (pb_sess s)) as [x|] eqn:G.
  - destruct (ti_sess _ _ _ T _ _ G) as [(is & S1 & S2 & S3 & S4) Sq _ _ _ _ _ _].
    destruct (firstn_forall2 _ _ _ _ S4) as (a1 & a2 & -> & F1 & F2). exists a1.
    split; [eapply sorted_app_l; eauto|]. split; [apply Forall_forall; intros i Hi; apply S3, in_or_app; auto|]. split; [exact F1|]. split.
    + rewrite map_app, app_length in Sq. destruct (sn_pending x); cbn [opt map length] in Sq; [|rewrite !app_nil_r, Nat.add_0_r in Sq; exact Sq].
      rewrite Nat.add_1_r, seqs_S in Sq. apply app_inj_tail in Sq. apply Sq.
    + intros i Hi. apply S3, in_app_or in Hi. destruct Hi as [Hi|Hi]; [auto|]. right. left.
      destruct (sn_pending x) as [m|] eqn:P; cbn [opt] in F2; [|inversion F2; subst; destruct Hi].
      destruct a2 as [|i0 a2]; [inversion F2|]. inversion F2 as [|? ? ? ? Ca F3]; subst. inversion F3; subst. destruct Hi as [->|[]].
      destruct Ca as (p & Mp & Cp). exists x, m, p. auto.
  - destruct (ti_none _ _ _ T _ G) as [(is & S1 & S2 & S3) Sq]. exists is. split; [exact S1|]. split; [exact S2|]. split; [exact S3|]. split; [exact Sq|].
    intros i Hi. right. right. destruct (in_dec N.eq_dec c (sub_ended L)) as [|Ne]; [assumption|]. exfalso.
    pose proof (ti_silent _ _ _ T _ G Ne) as Si. destruct Hi as (b & a & p & -> & _). apply (Si (QTook c i)); [apply in_or_app; right; now left|reflexivity].
Qed.

(*@prop C33: "due" for a subscriber that only makes wildcard-free subscriptions: the session read the message when exactly its
    topic was subscribed on the connection. *)
Lemma C33_due_literal_pf :
  forall max buf min auth co evs s log cid i,
  pb_run max buf min auth co pb_init evs = (s, log) -> subs_all literal (ops_of cid log) ->
  (due cid log i <-> exists before after p, log = before ++ QTook cid i :: after /\ message log i = Some p /\ held (ops_of cid before) (pm_topic p)).
Proof.
  intros max buf min auth co evs s L c i R Hl.
  assert (K : forall b a p, L = b ++ QTook c i :: a -> (trie_contains (trie_run (ops_of c b)) (pm_topic p) = true <-> held (ops_of c b) (pm_topic p))).
  { intros b a p E. apply T_Trie.C28_literal_subscriptions_are_a_set_pf. intros t ts Ht. apply Hl. rewrite E, ops_of_app. apply in_or_app. now left. }
  split; intros (b & a & p & E & M & C); exists b, a, p; (split; [exact E|]; split; [exact M|]); now apply (K b a p E).
Qed.

(*@example *)
Lemma C33_example_pf :
  let r := pb_run None 4 100 None None pb_init px_hist in
  map (fun m => (ps_topic m, ps_payload m, ps_seq m)) (sent_to 0 (snd r)) = [([x61], [x01], 0); ([x61], [x03], 1)] /\
  ops_of 0 (snd r) = [TSub [x61]] /\ In (QTook 0 1) (snd r) /\ sub_live (snd r) = [0].
Proof. evals. Qed.

(*@prop C34: in every history, each message published while connection [cid]'s session exists was read by it, or skipped when it
    lagged, or is still unread (the session is running and reads messages in order), or the connection ended. *)
Lemma C34_every_message_accounted_for_pf :
  forall max buf min auth co evs s log cid before after i,
  pb_run max buf min auth co pb_init evs = (s, log) -> log = before ++ QOpen cid :: after ->
  blen (published before) <= i < blen (published log) ->
  In (QTook cid i) log \/ (exists x y, In (QSkipped cid x y) log /\ x <= i < y) \/
  (exists x, mget cid (pb_sess s) = Some x /\ sn_pos x <= i) \/ In cid (sub_ended log).
Proof.
  intros max buf min auth co evs s L c b a i R E [H1 H2]. destruct (run_tinv buf max min auth co evs s L R) as [I T].
  destruct (mget c (pb_sess s)) as [x|] eqn:G.
  - destruct (N.lt_ge_cases i (sn_pos x)) as [Lt|Ge]; [|right; right; left; eauto].
    destruct (si_cover _ _ _ (ti_sess _ _ _ T _ _ G) b a i E H1 Lt) as [|(u & v & A & B & C)]; [auto|right; left; exists u, v; auto].
  - right. right. right. destruct (in_dec N.eq_dec c (sub_ended L)) as [|Ne]; [assumption|]. exfalso.
    apply (ti_silent _ _ _ T _ G Ne (QOpen c)); [rewrite E; apply in_or_app; right; now left|reflexivity].
Qed.

(*@prop C34: in every history, when a session skips the messages [x] .. [y-1], more than session_buffer_size messages were waiting for it
    (all from [x] on), and the ones lost are the oldest: exactly the newest [bcast_cap buf] >= session_buffer_size ones are
    kept; everything the session read before is older than [x], everything it reads later is at least [y]. *)
Lemma C34_only_lag_skips_the_oldest_pf :
  forall max buf min auth co evs s log cid before after x y,
  pb_run max buf min auth co pb_init evs = (s, log) -> log = before ++ QSkipped cid x y :: after ->
  x < y /\ buf < blen (published before) - x /\ y + bcast_cap buf = blen (published before) /\ buf <= bcast_cap buf /\
  (forall i, In (QTook cid i) before -> i < x) /\ (forall i, In (QTook cid i) after -> y <= i).
Proof.
  intros max buf min auth co evs s L c b a x y R E. destruct (run_tinv buf max min auth co evs s L R) as [I T].
  destruct (ti_skips _ _ _ T _ _ _ _ _ E) as (A & B & C & D). pose proof (bcast_cap_ge buf). repeat split; auto. lia.
Qed.

(*@example *)
Lemma C34_example_pf :
  let r := pb_run None 2 100 None None pb_init
     ([WAccept; WConn 0 (Some true); WSession 0 (px_env (px_sub [x2a]))] ++ map (fun b => WPublish [x61] [b]) [x01; x02; x03; x04; x05] ++ px_idle 7 0) in
  In (QSkipped 0 0 3) (snd r) /\ map ps_payload (sent_to 0 (snd r)) = [[x04]; [x05]] /\ bcast_cap 2 = 2.
Proof. evals. Qed.

(*@prop C35 is violated: after a frame that is no control message (here: topic "x", payload "y") the session goes on; a message published later is still
    sent to the subscriber. *)
Lemma C35_malformed_control_refuted_pf :
  exists m evs s log,
  msg_to_control m = None /\ pb_run None 4 100 None None pb_init evs = (s, log) /\ In (QControl 0 m None) log /\
  sub_ended log = [] /\ mget 0 (pb_sess s) <> None /\
  (exists before after f, log = before ++ QControl 0 m None :: after /\ In (QHanded 0 f true) after).
Proof.
  set (m := Build_ps_msg (Build_ps_header x00 1 [x78] 0 0 1) [x79]).
  exists m, ([WAccept; WConn 0 (Some true); WSession 0 (px_env (px_sub [x61])); WSession 0 (px_env (PnMsg m)); WPublish [x61] [x01]] ++ px_idle 4 0).
  eexists _, _. split; [reflexivity|]. split; [vm_compute; reflexivity|]. split; [inlog|]. split; [reflexivity|]. split; [discriminate|].
  eexists [_; _; _], _, _. split; [reflexivity|]. inlog.
Qed.

(*@prop C35 (what holds): a frame is taken for a control message exactly if it has no payload and its topic starts with
    "MSG.SUB." or "MSG.UNSUB."; any other frame leaves the session running with an unchanged filter, position and sequence number. *)
Lemma C35_malformed_ignored_partial_pf :
  (forall m, msg_to_control m = None <->
     ps_payload_size m <> 0 \/ (forall t, ps_topic m <> sub_prefix ++ t) /\ (forall t, ps_topic m <> unsub_prefix ++ t)) /\
  (forall max buf min auth co s cid e x m,
     mget cid (pb_sess s) = Some x -> sn_pending x = None -> sn_pos x = blen (pb_hist s) -> pb_closed s = false ->
     s_ready e = true -> s_next e = PnMsg m -> msg_to_control m = None ->
     let (s', new) := pb_act max buf min auth co s (WSession cid e) in
     new = [QControl cid m None] /\
     exists fl, mget cid (pb_sess s') = Some (mkSess (sn_seq x) (sn_pos x) None (sn_filter x) fl)).
Proof.
  split.
  - assert (SW : forall p b, starts_with p b = true <-> exists t, b = p ++ t).
    { intros p b. unfold starts_with. destruct (eq_dec (firstn (length p) b) p) as [E|E].
      - split; [|auto]. intros _. exists (skipn (length p) b). rewrite <- E at 1. symmetry. apply firstn_skipn.
      - split; [discriminate|]. intros [t ->]. exfalso. apply E. rewrite firstn_app, firstn_all, Nat.sub_diag. cbn. apply app_nil_r. }
    intros m. unfold msg_to_control. destruct (N.eqb_spec (ps_payload_size m) 0) as [Z|Z]; [|tauto].
    pose proof (SW sub_prefix (ps_topic m)) as W1. pose proof (SW unsub_prefix (ps_topic m)) as W2.
    destruct (starts_with sub_prefix (ps_topic m)); [|destruct (starts_with unsub_prefix (ps_topic m))].
    + split; [discriminate|]. intros [|[H _]]; [contradiction|]. destruct W1 as [W _]. destruct (W eq_refl) as [t Ht]. now apply H in Ht.
    + split; [discriminate|]. intros [|[_ H]]; [contradiction|]. destruct W2 as [W _]. destruct (W eq_refl) as [t Ht]. now apply H in Ht.
    + split; [|auto]. intros _. right. split; intros t Ht; [assert (false = true) by (apply W1; eauto)|assert (false = true) by (apply W2; eauto)]; discriminate.
  - intros max buf min auth co s cid e x m G P Q C Rd Nx Mc. cbn [pb_act]. unfold pb_session. rewrite G. unfold sn_iter. rewrite Rd. cbn [sn_pending sn_pos sn_seq sn_filter].
    rewrite P, C, Nx, Mc. unfold bcast_recv. rewrite Q, N.eqb_refl. split; [reflexivity|]. cbn [pb_sess]. rewrite mget_set_eq. eexists. reflexivity.
Qed.

(*@prop C36: for every topic [t] that is valid UTF-8 of at most 65525 bytes, subscribe(t) and unsubscribe(t) produce a frame that the
    decoder gives back and that the publisher understands as subscribe / unsubscribe of exactly [t]. *)
Lemma C36_control_messages_mean_the_topic_pf :
  forall now t, utf8 t -> blen t <= 65525 -> now < 2 ^ 64 ->
  (exists m, ps_new_sub now t = Some m /\ (forall rest, ps_decode PSHeader (ps_encode m ++ rest) = DMsg m PSHeader rest) /\ msg_to_control m = Some (TSub t)) /\
  (exists m, ps_new_unsub now t = Some m /\ (forall rest, ps_decode PSHeader (ps_encode m ++ rest) = DMsg m PSHeader rest) /\ msg_to_control m = Some (TUnsub t)).
Proof.
  intros now t U Hl Hn.
  assert (B1 : blen (sub_prefix ++ t) < 2 ^ 16) by (rewrite blen_app; change (blen sub_prefix) with 8; lia).
  assert (B2 : blen (unsub_prefix ++ t) < 2 ^ 16) by (rewrite blen_app; change (blen unsub_prefix) with 10; lia).
  assert (E : forall p, blen (p ++ t) < 2 ^ 16 -> exists m, ps_new now 0 (p ++ t) [] x00 = Some m /\ ps_wf m /\ ps_payload_size m = 0 /\ ps_topic m = p ++ t).
  { intros p B. unfold ps_new. rewrite (proj2 (N.ltb_lt _ _) B). eexists. split; [reflexivity|]. split; [|split; reflexivity].
    unfold ps_wf. cbn [ps_hdr psh_topic_size psh_topic psh_timestamp psh_seq psh_size ps_payload]. repeat split; auto; reflexivity. }
  split.
  - destruct (E sub_prefix B1) as (m & E1 & E2 & E3 & E4). exists m. split; [exact E1|]. split; [intros; now apply ps_decode_encode|].
    unfold msg_to_control. rewrite E3, E4. change (starts_with sub_prefix (sub_prefix ++ t)) with true. cbn [N.eqb].
    change (skipn (length sub_prefix) (sub_prefix ++ t)) with t. now rewrite lossy_id.
  - destruct (E unsub_prefix B2) as (m & E1 & E2 & E3 & E4). exists m. split; [exact E1|]. split; [intros; now apply ps_decode_encode|].
    unfold msg_to_control. rewrite E3, E4. change (starts_with sub_prefix (unsub_prefix ++ t)) with false. change (starts_with unsub_prefix (unsub_prefix ++ t)) with true. cbn [N.eqb].
    change (skipn (length unsub_prefix) (unsub_prefix ++ t)) with t. now rewrite lossy_id.
Qed.

(*@prop C36: in every history, the subscriptions carried out for a connection are those its control frames mean (so `ops_of` is what the subscriber asked). *)
Lemma C36_operations_are_those_received_pf :
  forall max buf min auth co evs s log cid m o,
  pb_run max buf min auth co pb_init evs = (s, log) -> In (QControl cid m o) log -> o = msg_to_control m.
Proof.
  intros max buf min auth co evs s L c m o R.
  revert s L R. apply (run_inv max buf min auth co (fun L _ => In (QControl c m o) L -> o = msg_to_control m)); [intros []|].
  intros L s o' s' H P Hi. apply in_app_or in Hi. destruct Hi as [Hi|Hi]; [auto|]. clear H.
  destruct P as [cid x o' d x' G St|cid x G|cid x m0 G Pm|cid x p G _ _ _ _ _ _|k cid au input ok id w rest G Au S|k cid au input ok w rest G Au S|
    k cid au input ok w rest G Au S|k cid G|k cid G Au|k cid G Au|m0 M Le|M|m0 C| |C|]; cbn [pb_open snd app In] in Hi;
    try (repeat (destruct Hi as [Hi|Hi]; [discriminate|]); destruct Hi; fail).
  destruct St; cbn [In] in Hi; try (destruct Hi as [Hi|[]]; discriminate); [destruct Hi|]. destruct Hi as [Hi|[]]. injection Hi as _ -> <-. reflexivity.
Qed.

(*@example *)
Lemma C36_example_pf :
  utf8 [xc3; xa9; x2e; x61] /\ px_sub [xc3; xa9; x2e; x61] <> PnPending /\
  ops_of 0 (snd (pb_run None 4 100 None None pb_init [WAccept; WConn 0 (Some true); WSession 0 (px_env (px_sub [xc3; xa9; x2e; x61])); WSession 0 (px_env (px_unsub [x61]))]))
  = [TSub [xc3; xa9; x2e; x61]; TUnsub [x61]].
Proof. split; [exists [0xe9; 0x2e; 0x61]; split; [repeat constructor; left; reflexivity|reflexivity]|]. split; [discriminate|]. vm_compute. reflexivity. Qed.

(*@prop C45 (publisher) is violated: publishing a topic of 65536 bytes is accepted and makes the task of every session subscribed to it panic: the
    subscriber's connection is lost. *)
Lemma C45_publish_oversized_topic_refuted_pf :
  exists topic, blen topic = 2 ^ 16 /\
  let r := pb_run None 4 100 None None pb_init
    ([WAccept; WConn 0 (Some true); WSession 0 (px_env (px_sub [x2a])); WPublish topic [x01]] ++ px_idle 1 0) in
  map (fun m => (blen (pm_topic m), om_payload (pm_body m))) (published (snd r)) = [(2 ^ 16, [x01])] /\
  flat_map (fun x => match x with QCrashed c => [c] | _ => [] end) (snd r) = [0] /\ mget 0 (pb_sess (fst r)) = None.
Proof. exists (repeat x61 (N.to_nat (2 ^ 16))). split; [vm_compute; reflexivity|]. evals. Qed.

(*@prop C45 (publisher; what holds): in every history a session task crashes only right after reading a published message whose topic has at
    least 65536 bytes; so with shorter topics there is never a crash. *)
Lemma C45_publish_crash_only_oversized_partial_pf :
  forall max buf min auth co evs s log before cid after,
  pb_run max buf min auth co pb_init evs = (s, log) -> log = before ++ QCrashed cid :: after ->
  exists b i p, before = b ++ [QTook cid i] /\ message log i = Some p /\ 2 ^ 16 <= blen (pm_topic p).
Proof.
  intros max buf min auth co evs s L b0 c a0 R E. destruct (run_crash max buf auth min co evs s L R _ _ _ E) as (b' & i & p & -> & M & Big).
  exists b', i, p. split; [reflexivity|]. split; [|exact Big]. rewrite E, <- app_assoc. now apply message_app.
Qed.

(*@example *)
Lemma C45_example_pf :
  let topic := repeat x61 (N.to_nat (2 ^ 16 - 1)) in
  let r := pb_run None 4 100 None None pb_init
    ([WAccept; WConn 0 (Some true); WSession 0 (px_env (px_sub [x2a])); WPublish topic [x01]] ++ px_idle 3 0) in
  map ps_payload (sent_to 0 (snd r)) = [[x01]] /\ sub_ended (snd r) = [].
Proof. evals. Qed.

(*@prop C52: a valid UTF-8 string is unchanged by the decoding the sockets apply to topics (String::from_utf8_lossy), and the result of
    that decoding is valid UTF-8 for every byte sequence. *)
Lemma C52_topics_survive_decoding_pf :
  (forall b, utf8 b -> from_utf8_lossy b = b) /\ (forall b, utf8 (from_utf8_lossy b)).
Proof. split; [exact lossy_id|exact lossy_valid]. Qed.

(*@example *)
Lemma C52_example_pf :
  utf8 [x61; xf0; x9f; x98; x80] /\ from_utf8_lossy [x61; xff; x62; xe2; x82] = [x61; xef; xbf; xbd; x62; xef; xbf; xbd] /\ ~ utf8 [xff].
Proof.
  split; [exists [0x61; 0x1f600]; split; [constructor; [left; reflexivity|constructor; [right; split; [discriminate|reflexivity]|constructor]]|reflexivity]|].
  split; [vm_compute; reflexivity|]. intros H. apply lossy_id in H. vm_compute in H. discriminate.
Qed.

(*@prop C24 (publisher): with max_clients = m, in every history at most m connections are being established or live at any time. *)
Lemma C24_publisher_max_clients_pf :
  forall m buf min auth co evs s log,
  m < 2 ^ 64 -> pb_run (Some m) buf min auth co pb_init evs = (s, log) -> blen (sub_live log) <= m.
Proof.
  intros m buf min auth co evs s L Hlt R. destruct (run_qcap (Some m) buf auth min co m evs s L eq_refl Hlt R) as [I C].
  rewrite (blen_perm _ _ (live_perm _ _ I)). unfold qcap in C. lia.
Qed.

(*@example *)
Lemma C24_publisher_example_pf :
  let r := pb_run (Some 2) 4 100 None None pb_init (px_hist ++ [WAccept; WAccept; WSession 0 (px_env PnEof); WAccept]) in
  sub_live (snd r) = [1; 2] /\ In QRefused (snd r) /\ In (QGone 0) (snd r).
Proof. evals. Qed.

(*@prop C25 (publisher) is violated: a client whose handshake makes the auth task panic is never subtracted: active_clients is 1 too large
    for ever. *)
Lemma C25_publisher_active_clients_refuted_pf :
  exists accept_all,
  let r := pb_run None 4 100 (Some accept_all) None pb_init
       [WAccept; WConn 0 (Some true); WAuth 0 [IoData [x01; x00; x00; x00; x05; x41]] true] in
  sub_live (snd r) = [] /\ pb_active (fst r) = 1.
Proof. exists (fun _ => true). evals. Qed.

(*@prop C25 (publisher; exact law): active_clients is the number of connections being established or live plus the number of those lost in an auth-task
    panic, so it is right if there were none. *)
Lemma C25_publisher_active_clients_partial_pf :
  forall max buf min auth co evs s log,
  pb_run max buf min auth co pb_init evs = (s, log) -> blen (sub_live log) + blen (sub_leaked log) < 2 ^ 64 ->
  pb_active s = blen (sub_live log) + blen (sub_leaked log).
Proof.
  intros max buf min auth co evs s L R Hlt. pose proof (run_inv1 max buf auth min co evs s L R) as I. rewrite (blen_perm _ _ (live_perm _ _ I)) in *.
  rewrite (i1_active _ _ I). unfold wrap64. apply N.mod_small, Hlt.
Qed.

(*@example *)
Lemma C25_publisher_example_pf :
  let r := pb_run None 4 100 None None pb_init (px_hist ++ [WAccept; WConn 0 None; WAccept; WConn 0 (Some true); WSession 0 (px_env PnEof)]) in
  sub_live (snd r) = [2] /\ sub_leaked (snd r) = [] /\ pb_active (fst r) = 1.
Proof. evals. Qed.

(*@prop C26 (publisher): with an authenticator [a], in every history: whatever a session does - honour a control frame, read a published
    message, write a frame - is preceded on its connection by a handshake in which the client sent an auth frame with a token that [a] accepted. *)
Lemma C26_publisher_only_authenticated_pf :
  forall max buf min a co evs s log before x after cid,
  pb_run max buf min (Some a) co pb_init evs = (s, log) -> log = before ++ x :: after ->
  match x with QOpen c | QControl c _ _ | QTook c _ | QSkipped c _ _ | QHanded c _ _ => c = cid | _ => False end ->
  exists input token frame rest, In (QAuthed cid input token) before /\ a token = true /\
    auth_frame token frame /\ received input = frame ++ rest.
Proof.
  intros max buf min a co evs s L b x af c R E X. destruct (ri_gate _ _ _ (run_rinv max buf (Some a) min co evs s L R)) as [G _].
  pose proof (G _ _ _ E) as Gx.
  assert (Au : authed (Some a) b c) by (destruct x; cbn in Gx; try contradiction; subst; exact Gx).
  destruct Au as [Au|(input & id & Hi)]; [discriminate|]. apply in_split in Hi. destruct Hi as (b1 & b2 & Eb).
  assert (G2 : gateE (Some a) b1 (QAuthed c input id)) by (apply (G b1 _ (b2 ++ x :: af)); rewrite E, Eb, <- app_assoc; reflexivity).
  cbn in G2. destruct G2 as (au & ok & w & rest & Ea & As). injection Ea as <-.
  apply auth_server_ok in As. destruct As as (_ & As & _ & used & frame & over & -> & Hf & Hu).
  exists (used ++ rest), id, frame, (over ++ received rest). split; [rewrite Eb; apply in_or_app; right; now left|]. split; [exact As|]. split; [exact Hf|].
  rewrite received_app, Hu, <- app_assoc. reflexivity.
Qed.

(*@prop C26 (publisher): in every history, the bytes a handshake writes are the ack frame 01 01, followed by the session being opened, or (nothing
    or) the reject frame 01 00, followed by the connection's end; and after a connection's end nothing is ever received from it or written to it. *)
Lemma C26_publisher_rejected_dropped_pf :
  forall max buf min auth co evs s log,
  pb_run max buf min auth co pb_init evs = (s, log) ->
  (forall before c w after, log = before ++ QAuthReply c w :: after ->
     (exists input token more, after = [QAuthed c input token; QOpen c] ++ more /\ w = [x01; x01]) \/
     (exists more, after = QGone c :: more /\ (w = [] \/ w = [x01; x00]))) /\
  (forall before x after c, log = before ++ x :: after -> sub_acts_on c x -> ~ In c (sub_ended before)).
Proof.
  intros max buf min auth co evs s L R. destruct (run_rinv max buf auth min co evs s L R) as [_ Dd _ Rp _ _]. split; [exact Rp|].
  intros b x a c E. apply (Dd _ _ _ E).
Qed.

(*@prop C26 (publisher): in every state with a pending handshake on connection [cid], if the client's auth frame arrives with a token [a] rejects (in
    pieces that do not crash the auth codec, C03; writes succeed), the client receives exactly the reject frame 01 00 and its connection is
    dropped; if [a] accepts it, it receives the ack frame 01 01 and a session is started. *)
Lemma C26_publisher_verdict_pf :
  forall max buf min a co s k cid token frame input,
  nth_error (pb_auths s) k = Some cid ->
  auth_frame token frame -> Forall delivery input -> received input = frame -> existsb (fatal_cut (blen token)) (cuts 0 input) = false ->
  let (s', new) := pb_act max buf min (Some a) co s (WAuth k input true) in
  if a token then new = [QAuthReply cid [x01; x01]; QAuthed cid input token; QOpen cid] /\ mget cid (pb_sess s') <> None
  else new = [QAuthReply cid [x01; x00]; QGone cid] /\ pb_sess s' = pb_sess s /\ pb_auths s' = firstn k (pb_auths s) ++ skipn (S k) (pb_auths s).
Proof.
  intros max buf min a co s k cid token frame input Nt Hf Hd Hr Hc. cbn [pb_act]. unfold pb_auth. rewrite Nt.
  destruct (auth_server_reads a true token frame input Hf Hd Hr Hc) as [rest ->]. destruct (a token).
  - cbn [pb_open app]. split; [reflexivity|]. cbn [pb_sess]. rewrite mget_set_eq. discriminate.
  - split; [reflexivity|]. split; reflexivity.
Qed.

(*@example *)
Lemma C26_publisher_example_pf :
  let a := (fun t => match t with [x41] => true | _ => false end) in
  let auth_of t := [IoData (fst (au_encode au_client (AuthM t)))] in
  let r := pb_run None 4 100 (Some a) None pb_init
       [WAccept; WConn 0 (Some true); WAccept; WConn 0 (Some true); WAuth 0 (auth_of [x41]) true; WAuth 0 (auth_of [x42]) true;
        WSession 0 (px_env (px_sub [x61])); WSession 1 (px_env (px_sub [x61]))] in
  sub_live (snd r) = [0] /\ In (QAuthReply 0 [x01; x01]) (snd r) /\ In (QAuthReply 1 [x01; x00]) (snd r) /\ ops_of 0 (snd r) = [TSub [x61]] /\ ops_of 1 (snd r) = [].
Proof. evals. Qed.

Lemma ps_size_law m : wf_frame m -> blen (ps_payload m) < 2 ^ 32 -> ps_size m + 1 = blen (ps_encode m).
Proof.
  intros (now & q & t & b & E) Hp. unfold pub_into_wire, ps_new in E. destruct (blen t <? 2 ^ 16); [|discriminate].
  injection E as <-. unfold ps_size, ps_header_len, ps_payload_size, ps_encode.
  cbn [ps_hdr ps_payload psh_topic_size psh_size psh_ctype psh_topic psh_timestamp psh_seq] in *. rewrite !blen_cons, !blen_app.
  unfold as_u32. rewrite N.mod_small by exact Hp. assert (K : forall k n, blen (put_be k n) = N.of_nat k) by (intros; unfold blen; now rewrite put_be_length). rewrite !K. lia.
Qed.

(*@prop C21 (publisher) is violated: bytes_tx is too small by one byte (the wire id) for every frame. *)
Lemma C21_publisher_bytes_tx_refuted_pf :
  let r := pb_run None 4 100 None None pb_init px_hist in
  pb_tx (fst r) = 42 /\ sum_len (map ps_encode (sent_frames (snd r))) = 44.
Proof. evals. Qed.

(*@prop C21 (publisher; exact law): in every history, bytes_tx + number of frames taken by connections = number of bytes of their encodings (payloads below
    4 GiB). *)
Lemma C21_publisher_bytes_partial_pf :
  forall max buf min auth co evs s log,
  pb_run max buf min auth co pb_init evs = (s, log) ->
  (forall m, In m (sent_frames log) -> blen (ps_payload m) < 2 ^ 32) ->
  pb_tx s + N.of_nat (length (sent_frames log)) = sum_len (map ps_encode (sent_frames log)).
Proof.
  intros max buf min auth co evs s L R Hs. destruct (run_rinv max buf auth min co evs s L R) as [_ _ _ _ Tx [W _]]. unfold txs in Tx. rewrite Tx.
  assert (K : forall m, In m (sent_frames L) -> wf_frame m).
  { intros m Hm. unfold sent_frames in Hm. apply in_flat_map in Hm. destruct Hm as (x & Hx & Hm). destruct x as [| | | | | |c m' [|]| | | | | | | |]; try contradiction. destruct Hm as [<-|[]]. eauto. }
  clear Tx. induction (sent_frames L) as [|m l IH]; [reflexivity|]. cbn [fold_right map sum_len length].
  assert (I1 : fold_right (fun m n => ps_size m + n) 0 l + N.of_nat (length l) = sum_len (map ps_encode l)).
  { apply IH; intros; [apply Hs|apply K]; now right. }
  pose proof (ps_size_law m (K m (or_introl eq_refl)) (Hs m (or_introl eq_refl))). fold (sum_len (map ps_encode l)). lia.
Qed.

(*@prop C57 (publisher): (1) from every reachable state, if a poll of the session of [cid] is still running after the iterations [es], their number is
    at most twice the number of unread messages, plus one for a frame waiting to be written, plus the number of frames that arrived during the
    poll; (2) a poll of the publisher's driver is still running only within twice the pending accepts plus the pending handshakes plus three times
    the connections arriving during the poll.  So without new events both return. *)
Lemma C57_publisher_poll_returns_pf :
  forall max buf min auth co evs s log,
  pb_run max buf min auth co pb_init evs = (s, log) ->
  (forall cid es s' new, mget cid (pb_sess s) <> None -> sn_poll buf cid es s = (s', new, None) ->
     (length es <= sess_work cid s + length (filter (fun e => is_frame (s_next e)) es))%nat) /\
  (forall ds s' new, pb_poll max auth ds s = (s', new, false) ->
     (length ds <= 2 * length (pb_conns s) + length (pb_auths s) + 3 * length (filter b_accept ds))%nat).
Proof.
  intros max buf min auth co evs s L R. destruct (run_tinv buf max min auth co evs s L R) as [I T]. split.
  - intros cid es s' o Hn P. eapply sn_poll_bound; eauto. intros x G. rewrite (ti_hist _ _ _ T). apply (si_pos _ _ _ (ti_sess _ _ _ T _ _ G)).
  - intros ds s' o P. eapply pb_poll_bound; eauto.
Qed.

(*@example *)
Lemma C57_publisher_example_pf :
  let s := fst (pb_run None 4 100 None None pb_init (firstn 6 px_hist)) in
  sess_work 0 s = 6%nat /\ snd (sn_poll 4 0 (repeat (px_env PnPending) 6) s) = Some SPend /\ snd (sn_poll 4 0 (repeat (px_env PnPending) 5) s) = None.
Proof. evals. Qed.

(*@prop C63: in every history, when a session's poll goes idle (returns Pending) and its connection accepted writes whenever asked during the poll,
    the session is up to date: all messages published since it was opened have been read or skipped by lagging, every due one has been written,
    and - if the flush timer and the flush itself were ready - the connection has been flushed. *)
Lemma C63_idle_session_up_to_date_pf :
  forall max buf min auth co evs s log cid es s' new,
  pb_run max buf min auth co pb_init evs = (s, log) -> sn_poll buf cid es s = (s', new, Some SPend) ->
  (forall e, In e es -> s_ready e = true) ->
  (forall before after i, log ++ new = before ++ QOpen cid :: after -> blen (published before) <= i < blen (published (log ++ new)) ->
     In (QTook cid i) (log ++ new) \/ (exists x y, In (QSkipped cid x y) (log ++ new) /\ x <= i < y)) /\
  (forall i, due cid (log ++ new) i -> exists m p, In m (sent_to cid (log ++ new)) /\ message (log ++ new) i = Some p /\ carries p m) /\
  ((forall e, In e es -> s_tick e = true /\ s_flush_ok e = true) -> exists x, mget cid (pb_sess s') = Some x /\ sn_flush x = false).
Proof.
  intros max buf min auth co evs s L c es s' o R P Rd. destruct (run_tinv buf max min auth co evs s L R) as [I0 T0].
  destruct (sn_poll_idle buf c es s s' o) as (x & G & Q & Pn & Fl); auto.
  { intros x G. rewrite (ti_hist _ _ _ T0). apply (si_pos _ _ _ (ti_sess _ _ _ T0 _ _ G)). }
  destruct (sn_poll_run max buf min auth co c es s s' o _ P) as [n Rn].
  pose proof (run_trans max buf min auth co _ _ _ _ _ _ _ R Rn) as R2. clear R Rn P.
  destruct (run_tinv buf max min auth co _ _ _ R2) as [I T]. pose proof (ti_sess _ _ _ T _ _ G) as Si.
  rewrite (ti_hist _ _ _ T) in Q. split; [|split].
  - intros b a i E [H1 H2]. rewrite <- Q in H2.
    destruct (si_cover _ _ _ Si b a i E H1 H2) as [|(u & v & A & B & C)]; [auto|right; exists u, v; auto].
  - intros i Hi. destruct Si as [(is & S1 & S2 & S3 & S4) _ _ _ _ _ _ _]. apply S3 in Hi. rewrite Pn in S4. cbn [opt] in S4. rewrite app_nil_r in S4.
    clear - Hi S4. induction S4 as [|j m is' ms Ca F IH]; [destruct Hi|]. destruct Hi as [->|Hi].
    + destruct Ca as (p & Mp & Cp). exists m, p. split; [now left|auto].
    + destruct (IH Hi) as (m' & p & A & B). exists m', p. split; [now right|exact B].
  - intros F. exists x. split; [exact G|now apply Fl].
Qed.

(*@example *)
Lemma C63_example_pf :
  let r := pb_run None 4 100 None None pb_init (firstn 6 px_hist) in
  let q := sn_poll 4 0 (repeat (px_env PnPending) 6) (fst r) in
  snd q = Some SPend /\ sent_to 0 (snd r) = [] /\ map ps_payload (sent_to 0 (snd r ++ snd (fst q))) = [[x01]; [x03]].
Proof. evals. Qed.

(*@prop C63 (flushing): a frame written on connection [cid] is flushed: after the step that wrote it, the session considers itself flushed
    (and an idle session is made so by C63_idle_session_up_to_date, given a chance to flush) only if there was, later, a turn of the session in
    which the flush timer had fired and the connection's flush succeeded. *)
Lemma C63_written_frames_flushed_pf :
  forall max buf min auth co evs s log ev s1 o more s2 log2 cid m x,
  pb_run max buf min auth co pb_init evs = (s, log) -> pb_act max buf min auth co s ev = (s1, o) -> In (QHanded cid m true) o ->
  pb_run max buf min auth co s1 more = (s2, log2) -> mget cid (pb_sess s2) = Some x -> sn_flush x = false ->
  exists e, In (WSession cid e) more /\ s_tick e && s_flush_ok e = true.
Proof.
  intros max buf min auth co evs s L ev s1 o more s2 L2 cid m x R A Hi R2 G F.
  pose proof (handed_unflushed max buf min auth co _ _ _ _ _ _ _ _ R A Hi) as U.
  destruct (run_unflushed max buf min auth co cid _ _ _ _ U R2) as [H|(_ & _ & _ & D)]; [exact H|]. rewrite (D x G) in F. discriminate.
Qed.

(*@prop C64 (publisher driver): when a poll of the driver ends in Pending, then in its last pass the listener had nothing to accept, none of the
    pending accepts was ready, and none of the pending handshakes was (except one whose task panicked: that one is passed over). *)
Lemma C64_publisher_driver_sleeps_only_when_idle_pf :
  forall max auth ds s s' new,
  pb_poll max auth ds s = (s', new, true) ->
  exists before d rest, ds = before ++ d :: rest /\
  b_accept d = false /\
  (forall k r, b_conn d = Some (k, r) -> nth_error (pb_conns s') k = None) /\
  (forall k i b, b_auth d = Some (k, i, b) -> nth_error (pb_auths s') k = None \/ (exists c, In (QPanicked c) new) \/
     (forall a, auth = Some a -> fst (fst (auth_server a b i)) = AuthRunning)).
Proof. exact poll_sleep. Qed.

(*@example *)
Lemma C64_publisher_example_pf :
  let d := mkBenv None None true in let c := mkBenv None (Some (0%nat, Some true)) false in let q := mkBenv None None false in
  let r := pb_poll None None [d; c; d; c; q] pb_init in
  snd r = true /\ snd (fst r) = [QAccepted 0; QOpen 0; QAccepted 1; QOpen 1].
Proof. evals. Qed.

(** * Dropping the socket *)
Lemma sess_pos max buf min auth co evs s L cid x : pb_run max buf min auth co pb_init evs = (s, L) -> mget cid (pb_sess s) = Some x -> sn_pos x <= blen (pb_hist s).
Proof. intros R G. destruct (run_tinv buf max min auth co evs s L R) as [_ T]. rewrite (ti_hist _ _ _ T). apply (si_pos _ _ _ (ti_sess _ _ _ T _ _ G)). Qed.
Lemma closed_iter buf cid e hist x x' dtx o r : sn_pos x <= blen hist -> s_ready e = true -> sn_iter buf cid e hist true x = (x', dtx, o, r) ->
  (r = SCont /\ (2 * N.to_nat (blen hist - sn_pos x') + match sn_pending x' with Some _ => 1 | None => 0 end < 2 * N.to_nat (blen hist - sn_pos x) + match sn_pending x with Some _ => 1 | None => 0 end)%nat) \/
  r = SCrash \/ (r = SDone /\ (s_send e = true -> sn_pos x = blen hist /\ sn_pending x = None)).
Proof.
  intros Hp Rd. unfold sn_iter. rewrite Rd. cbn [sn_pending sn_pos sn_seq sn_filter sn_flush].
  destruct (sn_pending x) as [m|] eqn:P.
  - destruct (s_send e) eqn:Sd; intros H; inversion H; subst; [left|right; right; split; [reflexivity|discriminate]]. cbn [sn_pos sn_pending]. split; [reflexivity|lia].
  - unfold bcast_recv. destruct (N.eqb_spec (sn_pos x) (blen hist)) as [E|Ne].
    + intros H; inversion H; subst. right; right. auto.
    + destruct (N.ltb_spec (sn_pos x + bcast_cap buf) (blen hist)) as [Lt|Ge].
      * intros H; inversion H; subst. left. cbn [sn_pos sn_pending]. split; [reflexivity|lia].
      * destruct (nth_error hist (N.to_nat (sn_pos x))) as [p|] eqn:Nt; [|apply nth_error_None in Nt; unfold blen in *; lia].
        destruct (trie_contains _ _); [destruct (pub_into_wire _ _ _ _)|]; intros H; inversion H; subst; [left|right; left; reflexivity|left]; cbn [sn_pos sn_pending]; (split; [reflexivity|lia]).
Qed.

Lemma closed_act max buf min auth co s ev s' o cid x : (forall x, mget cid (pb_sess s) = Some x -> sn_pos x <= blen (pb_hist s)) -> pb_closed s = true -> mget cid (pb_sess s) = Some x ->
  pb_act max buf min auth co s ev = (s', o) ->
  pb_closed s' = true /\
  ((exists x', mget cid (pb_sess s') = Some x' /\ (sess_work cid s' + ready_polls cid [ev] <= sess_work cid s)%nat) \/ In cid (sub_ended o)).
Proof.
  intros Hp Cl G H.
  assert (Same : forall s2, pb_sess s2 = pb_sess s -> pb_hist s2 = pb_hist s -> exists x', mget cid (pb_sess s2) = Some x' /\ (sess_work cid s2 <= sess_work cid s)%nat).
  { intros s2 E1 E2. exists x. unfold sess_work. rewrite E1, E2. split; [exact G|lia]. }
  assert (Open : forall c s1, pb_sess s1 = pb_sess s -> pb_hist s1 = pb_hist s -> exists x', mget cid (pb_sess (fst (pb_open c s1))) = Some x' /\ (sess_work cid (fst (pb_open c s1)) <= sess_work cid s)%nat).
  { intros c s1 E1 E2. unfold sess_work, pb_open. cbn [fst pb_sess pb_hist]. rewrite E1, E2, mget_set, G. destruct (eq_dec cid c); eexists; (split; [reflexivity|]); [cbn [sess_new sn_pos sn_pending]|]; lia. }
  destruct ev as [c e|k i b|k r| |t p|t p|]; cbn [pb_act] in H.
  - unfold pb_session in H. destruct (N.eq_dec c cid) as [->|Ne].
    + rewrite G in H. destruct (sn_iter buf cid e (pb_hist s) (pb_closed s) x) as [[[x' dtx] o1] r] eqn:It. rewrite Cl in It.
      unfold ready_polls. cbn [filter]. rewrite N.eqb_refl. cbn [andb]. destruct (s_ready e) eqn:Rd; cbn [length].
      * destruct (closed_iter buf cid e _ x x' dtx o1 r (Hp _ G) Rd It) as [(-> & Lt)|[-> |(-> & _)]]; inversion H; subst; clear H; cbn [pb_closed pb_decr pb_with_active].
        -- split; [exact Cl|]. left. exists x'. unfold sess_work. cbn [pb_sess pb_hist]. rewrite mget_set_eq, G. split; [reflexivity|lia].
        -- split; [exact Cl|]. right. unfold sub_ended. rewrite flat_map_app. apply in_or_app; right; left; reflexivity.
        -- split; [exact Cl|]. right. unfold sub_ended. rewrite flat_map_app. apply in_or_app; right; left; reflexivity.
      * unfold sn_iter in It. rewrite Rd in It. inversion It; subst. inversion H; subst. cbn [pb_closed]. split; [exact Cl|]. left. eexists. unfold sess_work. cbn [pb_sess pb_hist]. rewrite mget_set_eq, G. cbn [sn_pos sn_pending]. split; [reflexivity|lia].
    + assert (Rp : ready_polls cid [WSession c e] = 0%nat) by (unfold ready_polls; cbn [filter]; destruct (N.eqb_spec c cid); [congruence|reflexivity]). rewrite Rp, Nat.add_0_r.
      destruct (mget c (pb_sess s)) as [y|]; [|inversion H; subst; split; [exact Cl|left; apply Same; reflexivity]].
      destruct (sn_iter buf c e (pb_hist s) (pb_closed s) y) as [[[x' dtx] o1] [| | |]]; inversion H; subst; cbn [pb_closed pb_decr pb_with_active]; (split; [exact Cl|left]); exists x; unfold sess_work; cbn [pb_sess pb_hist pb_decr pb_with_active]; rewrite ?mget_set_ne, ?mget_del_ne, G by congruence; (split; [reflexivity|lia]).
  - change (ready_polls cid [WAuth k i b]) with 0%nat. rewrite Nat.add_0_r. unfold pb_auth in H.
    destruct (nth_error (pb_auths s) k) as [c|]; [|inversion H; subst; split; [exact Cl|left; apply Same; reflexivity]]. destruct auth as [a|]; [|inversion H; subst; split; [exact Cl|left; apply Same; reflexivity]].
    destruct (auth_server a b i) as [[[id| | |] w] rs].
    + set (s1 := mkPb _ _ _ _ _ _ _ _) in H. pose proof (Open c s1 eq_refl eq_refl) as Op. destruct (pb_open c s1) as [s2 o2] eqn:Eo. inversion H; subst. split; [unfold pb_open in Eo; inversion Eo; exact Cl|left; exact Op].
    + inversion H; subst. split; [exact Cl|left; apply Same; reflexivity].
    + inversion H; subst. split; [exact Cl|left; apply Same; reflexivity].
    + inversion H; subst. split; [exact Cl|left; apply Same; reflexivity].
  - change (ready_polls cid [WConn k r]) with 0%nat. rewrite Nat.add_0_r. unfold pb_conn in H.
    destruct (nth_error (pb_conns s) k) as [c|]; [|inversion H; subst; split; [exact Cl|left; apply Same; reflexivity]].
    destruct r as [[|]|]; [|inversion H; subst; split; [exact Cl|left; apply Same; reflexivity]|inversion H; subst; split; [exact Cl|left; apply Same; reflexivity]].
    destruct auth as [a|]; [inversion H; subst; split; [exact Cl|left; apply Same; reflexivity]|].
    set (s1 := mkPb _ _ _ _ _ _ _ _) in H. pose proof (Open c s1 eq_refl eq_refl) as Op. destruct (pb_open c s1) as [s2 o2] eqn:Eo. inversion H; subst. split; [unfold pb_open in Eo; inversion Eo; exact Cl|left; exact Op].
  - change (ready_polls cid [WAccept]) with 0%nat. rewrite Nat.add_0_r. unfold pb_accept in H. destruct (match max with Some m => _ | None => _ end); inversion H; subst; (split; [exact Cl|left; apply Same; reflexivity]).
  - change (ready_polls cid [WPublish t p]) with 0%nat. rewrite Nat.add_0_r. unfold pb_send in H. rewrite Cl in H. destruct (publish_outgoing min co p); inversion H; subst; (split; [exact Cl|left; apply Same; reflexivity]).
  - change (ready_polls cid [WTryPublish t p]) with 0%nat. rewrite Nat.add_0_r. unfold pb_send in H. rewrite Cl in H. destruct (try_publish_outgoing min co p); inversion H; subst; (split; [exact Cl|left; apply Same; reflexivity]).
  - change (ready_polls cid [@WClose]) with 0%nat. rewrite Nat.add_0_r. rewrite Cl in H. inversion H; subst. split; [exact Cl|left; apply Same; reflexivity].
Qed.

(*@prop C83 (publisher): when the PubSocket was dropped, the session of every subscriber ends, however the tasks are scheduled and whatever
    else happens: at the latest at the n-th poll at which its connection can take a frame, where n counts two for each message it has not
    looked at, one for a frame to be written, and one. *)
Lemma C83_publisher_sessions_end_pf :
  forall max buf min auth co evs s log cid x more s' new,
  pb_run max buf min auth co pb_init evs = (s, log) -> pb_closed s = true -> mget cid (pb_sess s) = Some x ->
  pb_run max buf min auth co s more = (s', new) -> (sess_work cid s < ready_polls cid more)%nat -> In cid (sub_ended new).
Proof.
  intros max buf min auth co evs s L cid x more. revert evs s L x. induction more as [|ev more IH]; intros evs s L x s' new R Cl G R2 W.
  { cbn in W. lia. }
  cbn [pb_run] in R2. destruct (pb_act max buf min auth co s ev) as [s1 o1] eqn:Ea. destruct (pb_run max buf min auth co s1 more) as [s2 o2] eqn:Er. inversion R2; subst s' new; clear R2.
  assert (R1 : pb_run max buf min auth co pb_init (evs ++ [ev]) = (s1, L ++ o1)). { rewrite PubDriverP.run_app, R. cbn [pb_run]. rewrite Ea, app_nil_r. reflexivity. }
  destruct (closed_act max buf min auth co s ev s1 o1 cid x (fun y Hy => sess_pos _ _ _ _ _ _ _ _ _ _ R Hy) Cl G Ea) as (Cl1 & [(x1 & G1 & W1)|En]); unfold sub_ended; rewrite flat_map_app; apply in_or_app; [right|left; exact En].
  apply (IH (evs ++ [ev]) s1 (L ++ o1) x1 s2 o2 R1 Cl1 G1 Er).
  assert (Rp : ready_polls cid (ev :: more) = (ready_polls cid [ev] + ready_polls cid more)%nat). { unfold ready_polls. cbn [filter]. destruct (match ev with WSession c e => _ | _ => _ end); reflexivity. }
  lia.
Qed.

(*@prop C83 (publisher): and when it ends because of that, it has served its subscriber: every message published since it started was looked
    at or had been pushed out of the buffer, and each that was due to the subscriber was written. *)
Lemma C83_publisher_last_messages_delivered_pf :
  forall max buf min auth co evs s log cid x e s' new,
  pb_run max buf min auth co pb_init evs = (s, log) -> pb_closed s = true -> mget cid (pb_sess s) = Some x ->
  pb_act max buf min auth co s (WSession cid e) = (s', new) -> s_ready e = true -> s_send e = true -> In (QGone cid) new ->
  (forall before after i, log = before ++ QOpen cid :: after -> blen (published before) <= i < blen (published log) ->
     In (QTook cid i) log \/ (exists x y, In (QSkipped cid x y) log /\ x <= i < y)) /\
  (forall i, due cid log i -> exists m p, In m (sent_to cid log) /\ message log i = Some p /\ carries p m).
Proof.
  intros max buf min auth co evs s L cid x e s' new R Cl G A Rd Sd Hg. pose proof (sess_pos _ _ _ _ _ _ _ _ _ _ R G) as Hp.
  destruct (run_tinv buf max min auth co evs s L R) as [I T]. pose proof (ti_sess _ _ _ T _ _ G) as Si.
  cbn [pb_act] in A. unfold pb_session in A. rewrite G in A. destruct (sn_iter buf cid e (pb_hist s) (pb_closed s) x) as [[[x' dtx] o1] r] eqn:It. rewrite Cl in It.
  assert (No : r = SCont \/ r = SCrash -> ~ In (QGone cid) o1).
  { clear - It. unfold sn_iter in It. destruct (s_ready e); [|inversion It; subst; intros _ []]. cbn [sn_pending sn_pos sn_seq sn_filter sn_flush] in It. destruct (sn_pending x).
    - destruct (s_send e); inversion It; subst; intros _ [H|[]]; discriminate.
    - destruct (bcast_recv _ _ _ _); [destruct (nth_error _ _); [destruct (trie_contains _ _); [destruct (pub_into_wire _ _ _ _)|]|]| | |]; try (destruct (s_next e)); inversion It; subst; intros _ K; cbn in K; intuition discriminate. }
  destruct (closed_iter buf cid e _ x x' dtx o1 r Hp Rd It) as [(-> & _)|[-> |(-> & K)]].
  - inversion A; subst. destruct (No (or_introl eq_refl) Hg).
  - inversion A; subst. apply in_app_or in Hg. destruct Hg as [Hg|[Hg|[]]]; [destruct (No (or_intror eq_refl) Hg)|discriminate].
  - destruct (K Sd) as [Q Pn]. rewrite (ti_hist _ _ _ T) in Q. split.
    + intros b a i E [H1 H2]. rewrite <- Q in H2. destruct (si_cover _ _ _ Si b a i E H1 H2) as [|(u & v & B & C & F)]; [auto|right; exists u, v; auto].
    + intros i Hi. destruct Si as [(is & S1 & S2 & S3 & S4) _ _ _ _ _ _ _]. apply S3 in Hi. rewrite Pn in S4. cbn [opt] in S4. rewrite app_nil_r in S4.
      clear - Hi S4. induction S4 as [|j m is' ms Ca F IH]; [destruct Hi|]. destruct Hi as [->|Hi].
      * destruct Ca as (p & Mp & Cp). exists m, p. split; [now left|auto].
      * destruct (IH Hi) as (m' & p & B & C). exists m', p. split; [now right|exact C].
Qed.

(*@prop C83 (publisher), refuted for the driver and for a subscriber that does not read: the driver never notices that the socket was dropped -
    it goes on accepting connections, as before, and starts sessions for them -, and a session whose connection takes no frame
    never ends, for any number of polls. *)
Lemma C83_publisher_drop_refuted_pf :
  (forall max s, fst (pb_accept max s) <> s \/ snd (pb_accept max s) = [QRefused]) /\
  (exists evs1 evs2 log1 log2 s1 s2, pb_run None 4 100 None None pb_init evs1 = (s1, log1) /\ In QClosed log1 /\
     pb_run None 4 100 None None s1 evs2 = (s2, log2) /\ In (QAccepted 1) log2 /\ In (QOpen 1) log2) /\
  (exists evs s log, pb_run None 4 100 None None pb_init evs = (s, log) /\ pb_closed s = true /\
     forall es, Forall (fun e => s_ready e = false) es ->
       exists s' x, pb_run None 4 100 None None s (map (WSession 0) es) = (s', []) /\ mget 0 (pb_sess s') = Some x).
Proof.
  split; [|split].
  - intros max s. unfold pb_accept. destruct (match max with Some m => _ | None => _ end); [right; reflexivity|left]. intros E. apply (f_equal pb_next_cid) in E. cbn in E. lia.
  - exists [WAccept; WConn 0 (Some true); WClose], [WAccept; WConn 0 (Some true)]. do 4 eexists. split; [vm_compute; reflexivity|]. split; [cbn; auto|]. split; [vm_compute; reflexivity|]. split; cbn; auto.
  - exists [WAccept; WConn 0 (Some true); WClose]. do 2 eexists. split; [vm_compute; reflexivity|]. split; [reflexivity|].
    assert (K : forall es s, Forall (fun e => s_ready e = false) es -> (exists x, mget 0 (pb_sess s) = Some x) -> exists s' x, pb_run None 4 100 None None s (map (WSession 0) es) = (s', []) /\ mget 0 (pb_sess s') = Some x).
    { induction es as [|e es IH]; intros s F (x & G); [exists s, x; auto|]. inversion F as [|? ? F1 F2]; subst. cbn [map pb_run pb_act]. unfold pb_session. rewrite G. unfold sn_iter. rewrite F1.
      match goal with |- context [pb_run _ _ _ _ _ ?s1 _] => destruct (IH s1 F2) as (s' & x' & E & G') end; [cbn [pb_sess]; rewrite mget_set_eq; eauto|]. rewrite E. exists s', x'. auto. }
    intros es F. apply K; [exact F|]. eexists. reflexivity.
Qed.

(*@example Messages 1 and 3 of the history of C33 are still to be delivered when the socket is dropped; then the session ends. *)
Lemma C83_publisher_example_pf :
  let r := pb_run None 4 100 None None pb_init (firstn 6 px_hist ++ [WClose]) in
  let q := pb_run None 4 100 None None (fst r) (px_idle 7 0) in
  pb_closed (fst r) = true /\ sess_work 0 (fst r) = 6%nat /\ ready_polls 0 (px_idle 7 0) = 7%nat /\ sent_to 0 (snd r) = [] /\
  map ps_payload (sent_to 0 (snd q)) = [[x01]; [x03]] /\ sub_ended (snd q) = [0].
Proof. evals. Qed.
