(** Publisher: polls terminate; an idle session is up to date. *)
From Coq Require Import ZArith ZifyBool ZifyNat ZifyN Permutation Sorting.Sorted.
From Verif Require Import Model.Base Model.Map Model.WirePubSub Model.Compression Model.Stats Model.Framed Model.WireAuth
  Model.Handshake Model.Trie Model.Utf8 Model.PubDriver Spec.CompressSpec Spec.PubSpec Proofs.BaseP Proofs.MapP Proofs.PubDriverP Proofs.PubDriverP2 Proofs.PubDriverP3 Proofs.PubDriverP4 Proofs.PubDriverP5.
Local Open Scope N_scope.

Section P.
Variables (max : option N) (buf : N) (auth : option (bytes -> bool)).

Lemma bcast_cap_pos : 1 <= bcast_cap buf.
Proof using. unfold bcast_cap. assert (2 ^ N.log2_up buf <> 0) by (apply N.pow_nonzero; lia). lia. Qed.
Lemma bcast_cap_ge : buf <= bcast_cap buf.
Proof using.
  unfold bcast_cap. destruct (N.eq_dec buf 0) as [->|]; [cbn; lia|]. destruct (N.eq_dec buf 1) as [->|]; [cbn; lia|].
  apply N.log2_up_spec. lia.
Qed.

Lemma session_cont cid e s s1 o : pb_session buf cid e s = (s1, o, Some SCont) ->
  (forall x, mget cid (pb_sess s) = Some x -> sn_pos x <= blen (pb_hist s)) ->
  (forall x, mget cid (pb_sess s1) = Some x -> sn_pos x <= blen (pb_hist s1)) /\
  (sess_work cid s1 + 1 <= sess_work cid s + (if is_frame (s_next e) then 1 else 0))%nat.
Proof using.
  unfold pb_session, sess_work. destruct (mget cid (pb_sess s)) as [x|] eqn:G; [|discriminate]. intros H Pos. specialize (Pos x eq_refl). revert H.
  unfold sn_iter. set (fl := if sn_flush x && s_tick e && s_flush_ok e then false else sn_flush x).
  destruct (s_ready e); [|discriminate]. cbn [sn_seq sn_pos sn_pending sn_filter sn_flush].
  destruct (sn_pending x) as [m|] eqn:P.
  { destruct (s_send e); [|discriminate]. intros [= <- <-]. cbn [pb_sess pb_hist]. rewrite mget_set_eq. split; [intros y [= <-]; exact Pos|]. cbn [sn_pos sn_pending]. lia. }
  pose proof bcast_cap_pos as Cp. unfold bcast_recv. destruct (N.eqb_spec (sn_pos x) (blen (pb_hist s))) as [Q|Q].
  { destruct (if pb_closed s then BClosed else BEmpty) eqn:BB; [destruct (pb_closed s); discriminate..| |discriminate].
    destruct (s_next e) as [m| | |]; try discriminate. intros [= <- <-]. cbn [pb_sess pb_hist]. rewrite mget_set_eq. split; [intros y [= <-]; exact Pos|]. cbn [sn_pos sn_pending is_frame]. lia. }
  destruct (N.ltb_spec (sn_pos x + bcast_cap buf) (blen (pb_hist s))) as [L|L].
  { intros [= <- <-]. cbn [pb_sess pb_hist]. rewrite mget_set_eq. split; [intros y [= <-]; cbn; lia|]. cbn [sn_pos sn_pending]. lia. }
  destruct (nth_error (pb_hist s) (N.to_nat (sn_pos x))) as [p|] eqn:E; [|discriminate].
  destruct (trie_contains (sn_filter x) (pm_topic p)) eqn:C.
  - destruct (pub_into_wire (s_now e) (sn_seq x) (pm_topic p) (pm_body p)) as [m|] eqn:W; [|discriminate].
    intros [= <- <-]. cbn [pb_sess pb_hist]. rewrite mget_set_eq. split; [intros y [= <-]; cbn; lia|]. cbn [sn_pos sn_pending]. lia.
  - intros [= <- <-]. cbn [pb_sess pb_hist]. rewrite mget_set_eq. split; [intros y [= <-]; cbn; lia|]. cbn [sn_pos sn_pending]. lia.
Qed.

Lemma sn_poll_bound cid : forall es s s' o,
  (forall x, mget cid (pb_sess s) = Some x -> sn_pos x <= blen (pb_hist s)) ->
  sn_poll buf cid es s = (s', o, None) -> mget cid (pb_sess s) <> None ->
  (length es <= sess_work cid s + length (filter (fun e => is_frame (s_next e)) es))%nat.
Proof using.
  induction es as [|e es IH]; intros s s' o Pos; cbn [sn_poll length filter]; [lia|].
  destruct (pb_session buf cid e s) as [[s1 o1] r1] eqn:E.
  intros H Hn. destruct r1 as [[| | |]|]; try discriminate.
  - destruct (session_cont cid e s s1 o1 E Pos) as [Pos1 Lt].
    destruct (sn_poll buf cid es s1) as [[s2 o2] r2] eqn:R. injection H as <- <- ->.
    assert (Hn1 : mget cid (pb_sess s1) <> None).
    { clear - E Hn. unfold pb_session in E. destruct (mget cid (pb_sess s)); [|congruence].
      destruct (sn_iter buf cid e (pb_hist s) (pb_closed s) s0) as [[[x' d] o'] [| | |]]; try discriminate. injection E as <- <-. cbn. now rewrite mget_set_eq. }
    specialize (IH s1 s2 o2 Pos1 R Hn1). destruct (is_frame (s_next e)); cbn [length]; lia.
  - exfalso. unfold pb_session in E. destruct (mget cid (pb_sess s)); [|congruence].
    destruct (sn_iter buf cid e (pb_hist s) (pb_closed s) s0) as [[[x' d] o'] [| | |]]; discriminate.
Qed.

Lemma session_pend cid e s s1 o : pb_session buf cid e s = (s1, o, Some SPend) ->
  (forall x, mget cid (pb_sess s) = Some x -> sn_pos x <= blen (pb_hist s)) ->
  s_ready e = true -> exists x, mget cid (pb_sess s1) = Some x /\ sn_pos x = blen (pb_hist s1) /\ sn_pending x = None /\
    (s_tick e && s_flush_ok e = true -> sn_flush x = false).
Proof using.
  unfold pb_session. destruct (mget cid (pb_sess s)) as [x|] eqn:G; [|discriminate]. intros H Pos Rd. specialize (Pos x eq_refl). revert H.
  unfold sn_iter. rewrite Rd. set (fl := if sn_flush x && s_tick e && s_flush_ok e then false else sn_flush x).
  cbn [sn_seq sn_pos sn_pending sn_filter sn_flush].
  destruct (sn_pending x) as [m|] eqn:P; [destruct (s_send e); discriminate|].
  unfold bcast_recv. destruct (N.eqb_spec (sn_pos x) (blen (pb_hist s))) as [Q|Q].
  { destruct (if pb_closed s then BClosed else BEmpty) eqn:BB; [destruct (pb_closed s); discriminate..| |discriminate].
    destruct (s_next e) as [m| | |]; try discriminate. intros [= <- <-]. cbn [pb_sess pb_hist]. rewrite mget_set_eq. eexists. split; [reflexivity|]. cbn. split; [exact Q|]. split; [reflexivity|].
    unfold fl. destruct (sn_flush x); [|destruct (false && _ && _); reflexivity]. cbn. now intros ->. }
  destruct (N.ltb_spec (sn_pos x + bcast_cap buf) (blen (pb_hist s))) as [L|L]; [discriminate|].
  destruct (nth_error (pb_hist s) (N.to_nat (sn_pos x))) as [p|] eqn:E.
  - destruct (trie_contains (sn_filter x) (pm_topic p)) eqn:C; [|discriminate].
    destruct (pub_into_wire (s_now e) (sn_seq x) (pm_topic p) (pm_body p)) as [m|] eqn:W; discriminate.
  - exfalso. apply nth_error_None in E. unfold blen in *. lia.
Qed.

Lemma sn_poll_idle cid : forall es s s' o,
  (forall x, mget cid (pb_sess s) = Some x -> sn_pos x <= blen (pb_hist s)) ->
  sn_poll buf cid es s = (s', o, Some SPend) -> (forall e, In e es -> s_ready e = true) ->
  exists x, mget cid (pb_sess s') = Some x /\ sn_pos x = blen (pb_hist s') /\ sn_pending x = None /\
    ((forall e, In e es -> s_tick e = true /\ s_flush_ok e = true) -> sn_flush x = false).
Proof using.
  induction es as [|e es IH]; intros s s' o Pos; cbn [sn_poll]; [discriminate|].
  destruct (pb_session buf cid e s) as [[s1 o1] r1] eqn:E. intros H Rd. destruct r1 as [[| | |]|]; try discriminate.
  - destruct (session_cont cid e s s1 o1 E Pos) as [Pos1 _].
    destruct (sn_poll buf cid es s1) as [[s2 o2] r2] eqn:R. injection H as <- <- ->.
    destruct (IH s1 s2 o2 Pos1 R) as (x & A & B & C & D); [intros; apply Rd; now right|]. exists x. repeat split; auto. intros F. apply D. intros; apply F; now right.
  - injection H as <- <-. destruct (session_pend _ _ _ _ _ E Pos) as (x & A & B & C & D); [apply Rd; now left|]. exists x. repeat split; auto.
    intros F. apply D. destruct (F e (or_introl eq_refl)) as [-> ->]. reflexivity.
Qed.

Lemma pb_auth_cont k i b s s' o : pb_auth auth k i b s = (s', o, true) ->
  (length (pb_conns s') = length (pb_conns s) /\ S (length (pb_auths s')) = length (pb_auths s))%nat.
Proof using.
  unfold pb_auth. destruct (nth_error (pb_auths s) k) as [cid|] eqn:G; [|discriminate]. destruct auth as [au|]; [|discriminate].
  pose proof (Permutation_length (nth_split_perm _ _ _ G)) as Ln. cbn [length] in Ln. remember (firstn k (pb_auths s) ++ skipn (S k) (pb_auths s)) as l eqn:El; clear El.
  destruct (auth_server au b i) as [[r w] rest]. destruct r; try discriminate; intros [= <- <-]; cbn [pb_open pb_decr pb_with_active pb_conns pb_auths]; lia.
Qed.
Lemma pb_auth_pend k i b s s' o : pb_auth auth k i b s = (s', o, false) ->
  (length (pb_conns s') = length (pb_conns s) /\ length (pb_auths s') <= length (pb_auths s))%nat.
Proof using.
  unfold pb_auth. destruct (nth_error (pb_auths s) k) as [cid|] eqn:G; [|intros [= <- <-]; auto]. destruct auth as [au|]; [|intros [= <- <-]; auto].
  pose proof (Permutation_length (nth_split_perm _ _ _ G)) as Ln. cbn [length] in Ln. remember (firstn k (pb_auths s) ++ skipn (S k) (pb_auths s)) as l eqn:El; clear El.
  destruct (auth_server au b i) as [[r w] rest]. destruct r; try discriminate; intros [= <- <-]; cbn [pb_open pb_decr pb_with_active pb_conns pb_auths]; lia.
Qed.
Lemma pb_conn_work k r s s' o c : pb_conn auth k r s = (s', o, c) ->
  (2 * length (pb_conns s') + length (pb_auths s') + (if c then 1 else 0) <= 2 * length (pb_conns s) + length (pb_auths s))%nat.
Proof using.
  unfold pb_conn. destruct (nth_error (pb_conns s) k) as [cid|] eqn:G; [|intros [= <- <- <-]; lia].
  pose proof (Permutation_length (nth_split_perm _ _ _ G)) as Ln. cbn [length] in Ln. remember (firstn k (pb_conns s) ++ skipn (S k) (pb_conns s)) as l eqn:El; clear El.
  destruct r as [[|]|]; [destruct auth|..]; intros [= <- <- <-]; cbn [pb_open pb_decr pb_with_active pb_conns pb_auths]; rewrite ?app_length; cbn [length]; lia.
Qed.
Lemma pb_accept_work s s' o : pb_accept max s = (s', o) ->
  (2 * length (pb_conns s') + length (pb_auths s') <= 2 * length (pb_conns s) + length (pb_auths s) + 2)%nat.
Proof using.
  unfold pb_accept. destruct (match max with Some m => _ | None => _ end); intros [= <- <-]; [lia|]. cbn [pb_incr pb_with_active pb_conns pb_auths]. rewrite app_length. cbn. lia.
Qed.
Lemma pb_iter_work d s s' o : pb_iter max auth d s = (s', o, true) ->
  (2 * length (pb_conns s') + length (pb_auths s') + 1 <= 2 * length (pb_conns s) + length (pb_auths s) + (if b_accept d then 3 else 0))%nat.
Proof using.
  unfold pb_iter.
  destruct (match b_auth d with Some (k, i, b) => pb_auth auth k i b s | None => (s, [], false) end) as [[s1 o1] c1] eqn:E1.
  assert (W1 : (2 * length (pb_conns s1) + length (pb_auths s1) + (if c1 then 1 else 0) <= 2 * length (pb_conns s) + length (pb_auths s))%nat).
  { destruct (b_auth d) as [[[k i] b]|]; [|injection E1 as <- <- <-; lia]. destruct c1; [apply pb_auth_cont in E1|apply pb_auth_pend in E1]; lia. }
  destruct c1; [intros [= <- <-]; lia|].
  destruct (match b_conn d with Some (k, r) => pb_conn auth k r s1 | None => (s1, [], false) end) as [[s2 o2] c2] eqn:E2.
  assert (W2 : (2 * length (pb_conns s2) + length (pb_auths s2) + (if c2 then 1 else 0) <= 2 * length (pb_conns s1) + length (pb_auths s1))%nat).
  { destruct (b_conn d) as [[k r]|]; [now apply pb_conn_work in E2|]. injection E2 as <- <- <-. lia. }
  destruct c2; [intros [= <- <-]; lia|].
  destruct (b_accept d); [|discriminate]. destruct (pb_accept max s2) as [s3 o3] eqn:E3. intros [= <- <-]. apply pb_accept_work in E3. lia.
Qed.
Lemma pb_poll_bound : forall ds s s' o, pb_poll max auth ds s = (s', o, false) ->
  (length ds <= 2 * length (pb_conns s) + length (pb_auths s) + 3 * length (filter b_accept ds))%nat.
Proof using.
  induction ds as [|d ds IH]; intros s s' o; cbn [pb_poll length filter]; [lia|].
  destruct (pb_iter max auth d s) as [[s1 o1] [|]] eqn:E; [|discriminate].
  destruct (pb_poll max auth ds s1) as [[s2 o2] r] eqn:R. intros [= <- <- ->]. apply pb_iter_work in E. specialize (IH _ _ _ R).
  destruct (b_accept d); cbn [length]; lia.
Qed.

(** ** Crashes *)
Definition crashE (b : list qout) (x : qout) : Prop :=
  match x with
  | QCrashed c => exists b' i p, b = b' ++ [QTook c i] /\ message b' i = Some p /\ 2 ^ 16 <= blen (pm_topic p)
  | _ => True
  end.
Lemma crash_prim L s o s' : pb_hist s = published L -> every crashE L -> qprim max buf auth s o s' -> every crashE (L ++ o).
Proof using.
  intros Hh H P. apply every_app; [exact H|]. intros b y a E. destruct y; try exact Logic.I.
  assert (Hin : In (QCrashed cid) o) by (rewrite E; apply in_or_app; right; now left).
  destruct P as [cid0 x o d x' G St|cid0 x G|cid0 x m G Pm|cid0 x p G _ _ _ Np _ Big|k cid0 au input ok id w rest G Au S|k cid0 au input ok w rest G Au S|
    k cid0 au input ok w rest G Au S|k cid0 G|k cid0 G Au|k cid0 G Au|m M Le|M|m C| |C|]; cbn [pb_open snd app In] in Hin;
    try (exfalso; repeat (destruct Hin as [Hin|Hin]; [discriminate|]); destruct Hin; fail).
  - exfalso. destruct St; cbn [In] in Hin; intuition discriminate.
  - destruct b as [|z [|z' b]]; cbn [app] in E; [discriminate| |destruct b; discriminate]. injection E as <- <- _. cbn.
    exists L, (sn_pos x), p. split; [reflexivity|]. split; [|exact Big]. unfold message. now rewrite <- Hh.
Qed.
Lemma run_crash min co evs s L : pb_run max buf min auth co pb_init evs = (s, L) -> every crashE L.
Proof.
  intros R. apply (run_inv max buf min auth co (fun L s => (inv1 L s /\ tinv buf L s) /\ every crashE L) ) in R; [apply R| |].
  - split; [split; [apply inv1_init|apply tinv_init]|apply every_nil].
  - intros L' s1 o s2 [[I T] C] P. split; [split; [eapply inv1_prim; eauto|eapply tinv_prim; eauto]|].
    eapply crash_prim; eauto. apply (ti_hist _ _ _ T).
Qed.
End P.
