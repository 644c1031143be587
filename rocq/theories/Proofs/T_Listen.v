(** C93: a listener that fails does no harm. *)
From Coq Require Import List NArith.
From Verif Require Import Model.Base Model.Map Model.Stats Model.Framed Model.WireReqRep Model.WirePubSub Model.WireAuth Model.Compression Model.Trie Model.Handshake Model.ReqDriver Model.RepDriver Model.PubDriver
  Spec.RepSpec Spec.ListenSpec.
Import ListNotations.
Open Scope N_scope.
(*HEADEND*)
From Coq Require Import ZArith ZifyBool ZifyNat ZifyN Bool Lia.
From Verif Require Import Proofs.BaseP Proofs.MapP Proofs.RepDriverP Proofs.PubDriverP.
Local Open Scope N_scope.

Lemma map_mget {K V W} {E : EqDec K} (f : V -> W) k m : mget k (map (fun kv => (fst kv, f (snd kv))) m) = option_map f (mget k m).
Proof. induction m as [|[a b] m IH]; cbn; [reflexivity|]. destruct (eq_dec k a); [reflexivity|exact IH]. Qed.
Lemma map_mset {K V W} {E : EqDec K} (f : V -> W) k v m : map (fun kv => (fst kv, f (snd kv))) (mset k v m) = mset k (f v) (map (fun kv => (fst kv, f (snd kv))) m).
Proof. induction m as [|[a b] m IH]; cbn; [reflexivity|]. destruct (eq_dec k a); cbn; [reflexivity|now rewrite IH]. Qed.
Lemma map_mdel {K V W} {E : EqDec K} (f : V -> W) k m : map (fun kv => (fst kv, f (snd kv))) (mdel k m) = mdel k (map (fun kv => (fst kv, f (snd kv))) m).
Proof. induction m as [|[a b] m IH]; cbn; [reflexivity|]. destruct (eq_dec k a); cbn; [exact IH|now rewrite IH]. Qed.
Lemma later_lt n c : c < n -> later n c = c. Proof. unfold later. intros H. destruct (N.ltb_spec c n); [reflexivity|lia]. Qed.
Lemma later_ge n c : n <= c -> later n c = c + 1. Proof. unfold later. intros H. destruct (N.ltb_spec c n); [lia|reflexivity]. Qed.

(** ** The reply socket *)
Section Rep.
Variables (max : option N) (min : N) (auth : option (bytes -> bool)) (co : option compressor) (D : decompressors).
Notation act := (rp_act max min auth co D).
Notation run := (rp_run max min auth co D).
Variable n : N.
Notation sh := (later n).
Definition shp (p : peer) : peer := mkPeer (sh (pr_cid p)) (pr_pending p) (pr_egress p) (pr_flush p) (pr_open p).
Definition shs (s : rp) : rp :=
  mkRp (rp_active s) (map sh (rp_conns s)) (map (fun ca : N * N => (sh (fst ca), snd ca)) (rp_auths s)) (map (fun kv => (fst kv, shp (snd kv))) (rp_peers s))
       (rp_chan s) (rp_held s) (rp_os s) (rp_next_rid s) (rp_next_cid s + 1) (rp_tx s) (rp_rx s) (rp_failed s) (rp_dropped s).

Lemma sh_iter e os rid p tx fl : peer_iter min co e os rid (shp p) tx fl =
  let '(p', tx', fl', o, r) := peer_iter min co e os rid p tx fl in (shp p', tx', fl', map (rep_later n) o, r).
Proof using.
  unfold peer_iter. destruct p as [c pe eg fs op]. unfold shp. cbn [pr_cid pr_pending pr_egress pr_flush pr_open].
  destruct (fs && p_flush_ok e); cbn [pr_cid pr_pending pr_egress pr_flush pr_open].
  all: destruct (if p_ready e then eg else []) as [|m q]; [|destruct (p_send e); reflexivity].
  all: destruct (pick (p_pref e) os pe) as [[r id]|]; [|destruct (p_next e); reflexivity].
  all: destruct (mget r os) as [[| x |]|]; try (destruct (p_next e); reflexivity).
  all: destruct (rep_outgoing min co id x); reflexivity.
Qed.
Lemma sh_request s a c m : rp_on_request D (shs s) a (sh c) m = let (s', o) := rp_on_request D s a c m in (shs s', map (rep_later n) o).
Proof using.
  unfold rp_on_request. cbn [shs rp_active rp_conns rp_auths rp_peers rp_chan rp_held rp_os rp_next_rid rp_next_cid rp_tx rp_rx rp_failed rp_dropped]. destruct (try_decompress D (rr_ctype m) (rr_payload m)); [|reflexivity].
  destruct (rp_dropped s || (rep_chan_cap <=? blen (rp_chan s))); reflexivity.
Qed.
Lemma sh_insert s c a : rp_insert (shs s) (sh c) a = let (s', o) := rp_insert s c a in (shs s', map (rep_later n) o).
Proof using.
  unfold rp_insert. cbn [shs rp_active rp_conns rp_auths rp_peers rp_chan rp_held rp_os rp_next_rid rp_next_cid rp_tx rp_rx rp_failed rp_dropped]. rewrite map_mget. f_equal.
  - unfold shs, rp_with_peers. cbn [rp_active rp_conns rp_auths rp_peers rp_chan rp_held rp_os rp_next_rid rp_next_cid rp_tx rp_rx rp_failed rp_dropped]. rewrite map_mset. reflexivity.
  - cbn [map rep_later]. f_equal. destruct (mget a (rp_peers s)) as [p|]; [|reflexivity]. cbn [option_map shp pr_open pr_cid]. destruct (pr_open p); reflexivity.
Qed.
Lemma sh_decr s : rp_decr (shs s) = shs (rp_decr s). Proof using. reflexivity. Qed.

Lemma sh_act s ev : n <= rp_next_cid s -> act (shs s) ev = let (s', o) := act s ev in (shs s', map (rep_later n) o).
Proof using.
  intros LE. destruct ev as [a e|k input ok|k res| | |rid x|rid|]; cbn [rp_act].
  - unfold rp_peer. cbn [shs rp_active rp_conns rp_auths rp_peers rp_chan rp_held rp_os rp_next_rid rp_next_cid rp_tx rp_rx rp_failed rp_dropped]. rewrite map_mget. destruct (mget a (rp_peers s)) as [p|]; cbn [option_map]; [|reflexivity].
    cbn [shp pr_open]. destruct (pr_open p) eqn:Op.
    + rewrite sh_iter. destruct (peer_iter min co e (rp_os s) (rp_next_rid s) p (rp_tx s) (rp_failed s)) as [[[[p' tx] fl] o] r].
      assert (Q : forall p2, mkRp (rp_active s) (map sh (rp_conns s)) (map (fun ca : N * N => (sh (fst ca), snd ca)) (rp_auths s)) (mset a (shp p2) (map (fun kv => (fst kv, shp (snd kv))) (rp_peers s)))
                 (rp_chan s) (rp_held s) (rp_os s) (rp_next_rid s) (rp_next_cid s + 1) tx (rp_rx s) fl (rp_dropped s)
               = shs (mkRp (rp_active s) (rp_conns s) (rp_auths s) (mset a p2 (rp_peers s)) (rp_chan s) (rp_held s) (rp_os s) (rp_next_rid s) (rp_next_cid s) tx (rp_rx s) fl (rp_dropped s))).
      { intros p2. unfold shs. cbn [rp_active rp_conns rp_auths rp_peers rp_chan rp_held rp_os rp_next_rid rp_next_cid rp_tx rp_rx rp_failed rp_dropped]. now rewrite map_mset. }
      destruct r as [|m| | |].
      * rewrite (Q p'). reflexivity.
      * rewrite (Q p'). cbn [shp pr_cid]. rewrite sh_request.
        match goal with |- context [rp_on_request D ?S a (pr_cid p) m] => destruct (rp_on_request D S a (pr_cid p) m) as [s2 o2] end. now rewrite map_app.
      * rewrite (Q p'). reflexivity.
      * change (mkPeer (pr_cid (shp p')) [] [] false false) with (shp (mkPeer (pr_cid p') [] [] false false)). rewrite (Q (mkPeer (pr_cid p') [] [] false false)), sh_decr, map_app. reflexivity.
      * rewrite (Q p'). reflexivity.
    + cbn [map]. f_equal. unfold shs, rp_with_peers. cbn [rp_active rp_conns rp_auths rp_peers rp_chan rp_held rp_os rp_next_rid rp_next_cid rp_tx rp_rx rp_failed rp_dropped]. now rewrite map_mdel.
  - unfold rp_auth. cbn [shs rp_active rp_conns rp_auths rp_peers rp_chan rp_held rp_os rp_next_rid rp_next_cid rp_tx rp_rx rp_failed rp_dropped]. rewrite nth_error_map. destruct (nth_error (rp_auths s) k) as [[c a]|]; cbn [option_map fst snd]; [|reflexivity]. destruct auth as [au|]; [|reflexivity].
    match goal with |- context [rp_insert ?S (sh c) a] => assert (Q : S = shs (drop_auth s k)) end.
    { unfold shs, drop_auth. cbn [rp_active rp_conns rp_auths rp_peers rp_chan rp_held rp_os rp_next_rid rp_next_cid rp_tx rp_rx rp_failed rp_dropped]. rewrite map_app, firstn_map, skipn_map. reflexivity. }
    rewrite Q. fold (drop_auth s k). destruct (auth_server au ok input) as [[[id| | |] w] rest].
    + rewrite sh_insert. destruct (rp_insert (drop_auth s k) c a) as [s2 o2]. now rewrite map_app.
    + reflexivity.
    + reflexivity.
    + reflexivity.
  - unfold rp_conn. cbn [shs rp_active rp_conns rp_auths rp_peers rp_chan rp_held rp_os rp_next_rid rp_next_cid rp_tx rp_rx rp_failed rp_dropped]. rewrite nth_error_map. destruct (nth_error (rp_conns s) k) as [c|]; cbn [option_map]; [|reflexivity].
    match goal with |- context [rp_decr ?S] => assert (Q : S = shs (drop_conn s k)) end.
    { unfold shs, drop_conn. cbn [rp_active rp_conns rp_auths rp_peers rp_chan rp_held rp_os rp_next_rid rp_next_cid rp_tx rp_rx rp_failed rp_dropped]. rewrite map_app, firstn_map, skipn_map. reflexivity. }
    rewrite Q. fold (drop_conn s k). destruct res as [[a|]|]; [|reflexivity|reflexivity]. destruct auth as [au|].
    + cbn [map]. f_equal. unfold shs, drop_conn. cbn [rp_active rp_conns rp_auths rp_peers rp_chan rp_held rp_os rp_next_rid rp_next_cid rp_tx rp_rx rp_failed rp_dropped]. rewrite !map_app, ?firstn_map, ?skipn_map. reflexivity.
    + rewrite sh_insert. destruct (rp_insert (drop_conn s k) c a) as [s2 o2]. reflexivity.
  - unfold rp_accept. cbn [shs rp_active rp_conns rp_auths rp_peers rp_chan rp_held rp_os rp_next_rid rp_next_cid rp_tx rp_rx rp_failed rp_dropped]. destruct (match max with Some m => m <=? rp_active s | None => false end); [reflexivity|].
    cbn [map rep_later]. rewrite (later_ge _ _ LE). f_equal. unfold shs, rp_incr, rp_with_active. cbn [rp_active rp_conns rp_auths rp_peers rp_chan rp_held rp_os rp_next_rid rp_next_cid rp_tx rp_rx rp_failed rp_dropped].
    rewrite map_app. cbn [map]. now rewrite (later_ge _ _ LE).
  - cbn [shs rp_active rp_conns rp_auths rp_peers rp_chan rp_held rp_os rp_next_rid rp_next_cid rp_tx rp_rx rp_failed rp_dropped]. destruct (rp_chan s) as [|q rest]; reflexivity.
  - cbn [shs rp_active rp_conns rp_auths rp_peers rp_chan rp_held rp_os rp_next_rid rp_next_cid rp_tx rp_rx rp_failed rp_dropped]. destruct (smem rid (rp_held s)); [|reflexivity].
    assert (Q : os_receiver (shs s) rid = os_receiver s rid). { unfold os_receiver. cbn [shs rp_active rp_conns rp_auths rp_peers rp_chan rp_held rp_os rp_next_rid rp_next_cid rp_tx rp_rx rp_failed rp_dropped]. induction (rp_peers s) as [|[k p] l IH]; [reflexivity|]. cbn [map existsb fst snd shp pr_pending]. now rewrite IH. }
    fold (shs s). rewrite Q. destruct (os_receiver s rid); reflexivity.
  - cbn [shs rp_active rp_conns rp_auths rp_peers rp_chan rp_held rp_os rp_next_rid rp_next_cid rp_tx rp_rx rp_failed rp_dropped]. destruct (smem rid (rp_held s)); reflexivity.
  - cbn [shs rp_active rp_conns rp_auths rp_peers rp_chan rp_held rp_os rp_next_rid rp_next_cid rp_tx rp_rx rp_failed rp_dropped]. cbn [map rep_later]. f_equal. f_equal. rewrite map_map. reflexivity.
Qed.
Lemma next_cid_mono s ev : rp_next_cid s <= rp_next_cid (fst (act s ev)).
Proof using.
  destruct ev as [a e|k input ok|k res| | |rid x|rid|]; cbn [rp_act].
  - unfold rp_peer. destruct (mget a (rp_peers s)) as [p|]; [|reflexivity]. destruct (pr_open p); [|reflexivity].
    destruct (peer_iter min co e (rp_os s) (rp_next_rid s) p (rp_tx s) (rp_failed s)) as [[[[p' tx] fl] o] r]. destruct r as [|m| | |]; cbn [fst]; try reflexivity.
    unfold rp_on_request. cbv zeta. destruct (try_decompress D (rr_ctype m) (rr_payload m)); [destruct (_ || _)|]; reflexivity.
  - unfold rp_auth. destruct (nth_error (rp_auths s) k) as [[c a]|]; [|reflexivity]. destruct auth; [|reflexivity]. destruct (auth_server b ok input) as [[[id| | |] w] rest]; reflexivity.
  - unfold rp_conn. destruct (nth_error (rp_conns s) k) as [c|]; [|reflexivity]. destruct res as [[a|]|]; [destruct auth|..]; reflexivity.
  - unfold rp_accept. destruct (match max with Some m => m <=? rp_active s | None => false end); [reflexivity|]. cbn. lia.
  - destruct (rp_chan s); reflexivity.
  - destruct (smem rid (rp_held s)); [destruct (os_receiver s rid)|]; reflexivity.
  - destruct (smem rid (rp_held s)); reflexivity.
  - reflexivity.
Qed.
Lemma sh_run : forall evs s, n <= rp_next_cid s -> run (shs s) evs = let (s', o) := run s evs in (shs s', map (rep_later n) o).
Proof using.
  induction evs as [|ev evs IH]; intros s LE; cbn [rp_run]; [reflexivity|]. rewrite (sh_act s ev LE). pose proof (next_cid_mono s ev) as M. destruct (act s ev) as [s1 o1]. cbn [fst] in M.
  rewrite (IH s1 ltac:(lia)). destruct (run s1 evs) as [s2 o2]. now rewrite map_app.
Qed.

End Rep.
Section Rep2.
Variables (max : option N) (min : N) (auth : option (bytes -> bool)) (co : option compressor) (D : decompressors).
Notation act := (rp_act max min auth co D).
Notation run := (rp_run max min auth co D).
(** *** While the failing connection is pending *)
Definition plus (s : rp) : rp :=
  mkRp (wrap64 (rp_active s + 1)) (rp_conns s ++ [rp_next_cid s]) (rp_auths s) (rp_peers s)
       (rp_chan s) (rp_held s) (rp_os s) (rp_next_rid s) (rp_next_cid s + 1) (rp_tx s) (rp_rx s) (rp_failed s) (rp_dropped s).
Lemma wrap_swap a : wrap64 (wrap64 (a + 1) + (2 ^ 64 - 1)) = wrap64 (wrap64 (a + (2 ^ 64 - 1)) + 1).
Proof using. unfold wrap64. rewrite !N.add_mod_idemp_l by lia. f_equal. lia. Qed.
Lemma plus_decr s : rp_decr (plus s) = plus (rp_decr s).
Proof using. unfold rp_decr, plus, rp_with_active. cbn [rp_active rp_conns rp_auths rp_peers rp_chan rp_held rp_os rp_next_rid rp_next_cid rp_tx rp_rx rp_failed rp_dropped]. now rewrite wrap_swap. Qed.
Lemma plus_act s ev : rep_serving ev -> act (plus s) ev = (let (s', o) := act s ev in (plus s', o)) /\ rp_next_cid (fst (act s ev)) = rp_next_cid s /\ rp_conns (fst (act s ev)) = rp_conns s.
Proof using.
  intros SV. destruct ev as [a e|k input ok|k res| | |rid x|rid|]; try contradiction; cbn [rp_act].
  - unfold rp_peer. cbn [plus rp_active rp_conns rp_auths rp_peers rp_chan rp_held rp_os rp_next_rid rp_next_cid rp_tx rp_rx rp_failed rp_dropped]. destruct (mget a (rp_peers s)) as [p|]; [|auto].
    destruct (pr_open p); [|auto].
    destruct (peer_iter min co e (rp_os s) (rp_next_rid s) p (rp_tx s) (rp_failed s)) as [[[[p' tx] fl] o] r].
    destruct r as [|m| | |]; cbn [fst]; try (split; [reflexivity|auto]; fail).
    + unfold rp_on_request. cbn [rp_next_rid rp_os rp_rx rp_dropped rp_chan rp_conns rp_active rp_auths rp_peers rp_held rp_next_cid rp_tx rp_failed].
      destruct (try_decompress D (rr_ctype m) (rr_payload m)); [destruct (rp_dropped s || (rep_chan_cap <=? blen (rp_chan s)))|]; auto.
    + split; [|auto]. match goal with |- (rp_decr ?S, _) = (plus (rp_decr ?T), _) => change S with (plus T) end. now rewrite plus_decr.
  - unfold rp_auth. cbn [plus rp_active rp_conns rp_auths rp_peers rp_chan rp_held rp_os rp_next_rid rp_next_cid rp_tx rp_rx rp_failed rp_dropped]. destruct (nth_error (rp_auths s) k) as [[c a]|]; [|auto]. destruct auth as [au|]; [|auto]. destruct (auth_server au ok input) as [[[id| | |] w] rest]; try (auto; fail).
    split; [|auto]. fold (drop_auth s k). match goal with |- (rp_decr ?S, _) = _ => change S with (plus (drop_auth s k)) end. now rewrite plus_decr.
  - cbn [plus rp_active rp_conns rp_auths rp_peers rp_chan rp_held rp_os rp_next_rid rp_next_cid rp_tx rp_rx rp_failed rp_dropped]. destruct (rp_chan s) as [|q rest]; auto.
  - cbn [plus rp_active rp_conns rp_auths rp_peers rp_chan rp_held rp_os rp_next_rid rp_next_cid rp_tx rp_rx rp_failed rp_dropped]. destruct (smem rid (rp_held s)); [|auto]. change (os_receiver _ rid) with (os_receiver s rid). destruct (os_receiver s rid); auto.
  - cbn [plus rp_active rp_conns rp_auths rp_peers rp_chan rp_held rp_os rp_next_rid rp_next_cid rp_tx rp_rx rp_failed rp_dropped]. destruct (smem rid (rp_held s)); auto.
  - auto.
Qed.
Lemma plus_run : forall evs s, Forall rep_serving evs ->
  run (plus s) evs = (let (s', o) := run s evs in (plus s', o)) /\ rp_next_cid (fst (run s evs)) = rp_next_cid s /\ rp_conns (fst (run s evs)) = rp_conns s.
Proof using.
  induction evs as [|ev evs IH]; intros s F; cbn [rp_run]; [auto|]. assert (F1 : rep_serving ev) by now inversion F. assert (F2 : Forall rep_serving evs) by now inversion F.
  destruct (plus_act s ev F1) as (E & C1 & C2). rewrite E. destruct (act s ev) as [s1 o1]. cbn [fst] in *. destruct (IH s1 F2) as (E2 & C3 & C4). rewrite E2. destruct (run s1 evs) as [s2 o2]. cbn [fst] in *. split; [reflexivity|]. split; congruence.
Qed.

(** *** All numbers are below the next one *)
Definition below (s : rp) : Prop := rp_active s < 2 ^ 64 /\ Forall (fun c => c < rp_next_cid s) (rp_conns s) /\ Forall (fun ca : N * N => fst ca < rp_next_cid s) (rp_auths s) /\ (forall a p, mget a (rp_peers s) = Some p -> pr_cid p < rp_next_cid s) /\ NoDup (mkeys (rp_peers s)).
Lemma wrap_lt a : wrap64 a < 2 ^ 64. Proof using. unfold wrap64. apply N.mod_lt. lia. Qed.
Lemma forall_drop {A} (P : A -> Prop) k l : Forall P l -> Forall P (firstn k l ++ skipn (S k) l).
Proof using.
  rewrite !Forall_forall. intros H x X. apply H. rewrite in_app_iff in X. destruct X as [X | X].
  - rewrite <- (firstn_skipn k l), in_app_iff. now left.
  - rewrite <- (firstn_skipn (S k) l), in_app_iff. now right.
Qed.
Lemma below_peers s ps : below s -> (forall a p, mget a ps = Some p -> pr_cid p < rp_next_cid s) -> NoDup (mkeys ps) -> below (rp_with_peers s ps).
Proof using. intros (A & B & C & _ & _) H N. repeat split; assumption. Qed.
Lemma below_upd s a p : below s -> pr_cid p < rp_next_cid s -> below (upd s a p).
Proof using.
  intros B H. pose proof B as (_ & _ & _ & P & N). apply below_peers; [exact B| |apply nodup_set; exact N]. intros b q. rewrite mget_set. destruct (eq_dec b a); [intros X; injection X as <-; exact H|apply P].
Qed.
Lemma below_decr s : below s -> below (rp_decr s).
Proof using. intros (A & B & C & P & N). unfold below. cbn [rp_decr rp_with_active rp_active rp_conns rp_auths rp_peers rp_next_cid]. repeat split; try assumption. apply wrap_lt. Qed.
Lemma below_insert s c a : below s -> c < rp_next_cid s -> below (fst (rp_insert s c a)).
Proof using. intros B H. cbn [rp_insert fst]. apply (below_upd s a (mkPeer c [] [] false true)); assumption. Qed.
Lemma below_drop_auth s k : below s -> below (drop_auth s k).
Proof using. intros (A & B & C & P & N). repeat split; try assumption. cbn [drop_auth rp_auths rp_next_cid]. now apply forall_drop. Qed.
Lemma below_drop_conn s k : below s -> below (drop_conn s k).
Proof using. intros (A & B & C & P & N). repeat split; try assumption. cbn [drop_conn rp_conns rp_next_cid]. now apply forall_drop. Qed.
Lemma below_prim s o s' : below s -> prim max min auth co D s o s' -> below s'.
Proof using.
  intros B H. pose proof B as (A1 & A2 & A3 & A4 & A5). destruct H.
  all: try (apply below_upd; [exact B|cbn [pr_cid]; eauto]; fail).
  - apply below_decr, below_upd; [exact B|cbn [pr_cid]; eauto].
  - match goal with |- below (fst (rp_on_request D ?S _ _ _)) => assert (X : below S) by (apply below_upd; [exact B|cbn [pr_cid]; eauto]); revert X; generalize S; clear end.
    intros s X. unfold rp_on_request. destruct (try_decompress D (rr_ctype m) (rr_payload m)); [destruct (_ || _)|]; exact X.
  - apply below_peers; [exact B| |now apply nodup_del]. intros b q. rewrite mget_del. destruct (eq_dec b a); [discriminate|apply A4].
  - apply below_insert; [now apply below_drop_auth|]. cbn. rewrite Forall_forall in A3. apply (A3 (cid, addr)). eapply nth_error_In; eauto.
  - now apply below_decr, below_drop_auth.
  - now apply below_drop_auth.
  - now apply below_decr, below_drop_conn.
  - assert (X : cid < rp_next_cid s) by (rewrite Forall_forall in A2; apply A2; eapply nth_error_In; eauto). pose proof (below_drop_conn s k B) as (C1 & C2 & C3 & C4 & C5). repeat split; try assumption.
    cbn [add_auth rp_auths rp_next_cid]. apply Forall_app. split; [exact C3|]. repeat constructor. exact X.
  - apply below_insert; [now apply below_drop_conn|]. cbn. rewrite Forall_forall in A2. apply A2. eapply nth_error_In; eauto.
  - exact B.
  - unfold below. cbn [rp_incr rp_with_active add_conn rp_active rp_conns rp_auths rp_peers rp_next_cid]. split; [apply wrap_lt|]. split; [|split; [|split; [|exact A5]]].
    + apply Forall_app. split; [|repeat constructor; lia]. eapply Forall_impl; [|exact A2]. cbn. intros; lia.
    + eapply Forall_impl; [|exact A3]. cbn. intros; lia.
    + intros a p G. specialize (A4 a p G). lia.
  - exact B.
  - exact B.
  - exact B.
  - exact B.
  - exact B.
Qed.
Lemma run_below evs : below (fst (run rp_init evs)).
Proof using.
  assert (B0 : below rp_init).
  { split; [reflexivity|]. split; [constructor|]. split; [constructor|]. split; [|constructor]. intros a p H. discriminate H. }
  destruct (run rp_init evs) as [s L] eqn:R. cbn [fst].
  refine (RepDriverP.run_inv max min auth co D (fun _ s => below s) _ B0 evs s L R).
  intros L0 s0 o0 s1 B P. eapply below_prim; eauto.
Qed.

Lemma run_below_from : forall evs s, below s -> below (fst (run s evs)).
Proof using.
  induction evs as [|ev evs IH]; intros s B; [exact B|]. cbn [rp_run]. destruct (rp_act max min auth co D s ev) as [s1 o1] eqn:A.
  assert (B' : below s1).
  { apply act_prims in A. clear - A B. revert B. induction A as [|s o1 s1 o2 s2 P Ps IH]; intros B; [exact B|]. apply IH. eapply below_prim; eauto. }
  specialize (IH _ B'). destruct (run s1 evs) as [s2 o2]. exact IH.
Qed.

Lemma shs_below n s : below s -> n = rp_next_cid s ->
  shs n s = mkRp (rp_active s) (rp_conns s) (rp_auths s) (rp_peers s) (rp_chan s) (rp_held s) (rp_os s) (rp_next_rid s) (rp_next_cid s + 1) (rp_tx s) (rp_rx s) (rp_failed s) (rp_dropped s).
Proof using.
  intros (_ & A & B & C & N) ->. unfold shs. f_equal.
  - rewrite <- (map_id (rp_conns s)) at 2. apply map_ext_in. intros c H. rewrite Forall_forall in A. now apply later_lt, A.
  - rewrite <- (map_id (rp_auths s)) at 2. apply map_ext_in. intros [c a] H. rewrite Forall_forall in B. cbn [fst snd]. specialize (B _ H). cbn [fst] in B. now rewrite (later_lt _ _ B).
  - rewrite <- (map_id (rp_peers s)) at 2. apply map_ext_in. intros [a p] H. cbn. f_equal. specialize (C a p (in_mget _ _ _ N H)). unfold shp. rewrite (later_lt _ _ C). now destruct p.
Qed.
End Rep2.

Lemma admissions_next max min auth co D evs : rep_admissions (snd (rp_run max min auth co D rp_init evs)) = rp_next_cid (fst (rp_run max min auth co D rp_init evs)).
Proof.
  destruct (rp_run max min auth co D rp_init evs) as [s L] eqn:R. cbn [fst snd].
  apply (RepDriverP.run_inv max min auth co D (fun L s => rep_admissions L = rp_next_cid s)) with (2 := eq_refl) in R; [exact R|].
  clear. intros L s o s' I P. assert (A : forall a b, rep_admissions (a ++ b) = rep_admissions a + rep_admissions b) by (intros; unfold rep_admissions, blen; rewrite filter_app, app_length; lia).
  rewrite A, I. destruct P; try (cbn; lia).
  - unfold rp_on_request. destruct (try_decompress D (rr_ctype m) (rr_payload m)); [destruct (_ || _)|]; cbn; lia.
  - rewrite A. unfold rp_insert. cbn [fst snd rp_with_peers rp_next_cid drop_auth]. destruct (mget addr (rp_peers (drop_auth s k))) as [p|]; [destruct (pr_open p)|]; cbn; lia.
  - unfold rp_insert. cbn [fst snd rp_with_peers rp_next_cid drop_conn]. destruct (mget addr (rp_peers (drop_conn s k))) as [p|]; [destruct (pr_open p)|]; cbn; lia.
  - cbn [rp_set_app rp_next_cid]. assert (Z : forall l, rep_admissions (map (fun q => RDiscarded (q_rid q)) l) = 0) by (induction l; [reflexivity|assumption]).
    change (rep_admissions (RSocketDropped :: ?x)) with (rep_admissions x). unfold rep_admissions at 1. cbn [filter]. fold (rep_admissions (map (fun q => RDiscarded (q_rid q)) (rp_chan s))). rewrite Z. lia.
Qed.

(*@prop Reply socket.  In any history, at any point where there is room for another client: a connection that the listener reports and that
    then cannot be established (or a listener that fails, which is reported the same way) changes nothing.  Everything that happens in
    between and afterwards is what would have happened without it - the same requests, responses, frames, refusals - and active_clients()
    is the same, except that later connections have the next number. *)
Lemma C93_reply_failed_accept_pf :
  forall max min auth co D before during after res,
    (res = None \/ res = Some None) ->
    Forall rep_serving during ->
    let run := rp_run max min auth co D in
    let s := fst (run rp_init before) in
    (forall m, max = Some m -> rp_active s < m) ->
    let n := rep_admissions (snd (run rp_init before)) in
    let k := length (rp_conns s) in
    exists o1 o2,
      snd (run rp_init (before ++ during ++ after)) = snd (run rp_init before) ++ o1 ++ o2 /\
      snd (run rp_init (before ++ VAccept :: during ++ VConn k res :: after)) =
        snd (run rp_init before) ++ RAccepted n :: o1 ++ RGone n :: map (rep_later n) o2 /\
      rp_active (fst (run rp_init (before ++ VAccept :: during ++ VConn k res :: after))) =
        rp_active (fst (run rp_init (before ++ during ++ after))).
Proof.
  intros max min auth co D before during after res RS DU run s MX n k. subst run n k. rewrite admissions_next. fold s.
  assert (B : below s) by apply run_below. rewrite !RepDriverP.run_app. unfold s in *. destruct (rp_run max min auth co D rp_init before) as [s0 L0]. cbn [fst snd] in *. clear s.
  rewrite RepDriverP.run_app. cbn [rp_run rp_act]. unfold rp_accept. replace (match max with Some m => m <=? rp_active s0 | None => false end) with false by (destruct max as [m|]; [specialize (MX m eq_refl); lia|reflexivity]).
  change (rp_incr _) with (plus s0). rewrite RepDriverP.run_app. destruct (plus_run max min auth co D during s0 DU) as (E & C1 & C2). rewrite E.
  assert (B1 : below (fst (rp_run max min auth co D s0 during))).
  { now apply run_below_from. }
  destruct (rp_run max min auth co D s0 during) as [s1 o1] eqn:R1. cbn [fst] in *.
  cbn [rp_run rp_act]. unfold rp_conn. cbn [plus rp_conns]. rewrite C2.
  rewrite nth_error_app2 by lia. rewrite Nat.sub_diag. cbn [nth_error].
  match goal with |- context [rp_decr ?S] => assert (Q : rp_decr S = shs (rp_next_cid s0) s1) end.
  { rewrite (shs_below (rp_next_cid s0) s1 B1 (eq_sym C1)). unfold rp_decr, rp_with_active. cbn [rp_active rp_conns rp_auths rp_peers rp_chan rp_held rp_os rp_next_rid rp_next_cid rp_tx rp_rx rp_failed rp_dropped].
    unfold plus. cbn [rp_active rp_auths rp_peers rp_chan rp_held rp_os rp_next_rid rp_next_cid rp_tx rp_rx rp_failed rp_dropped].
    replace (wrap64 (wrap64 (rp_active s1 + 1) + (2 ^ 64 - 1))) with (rp_active s1)
      by (rewrite wrap_swap; destruct B1 as (A & _); unfold wrap64; rewrite N.add_mod_idemp_l by lia; replace (rp_active s1 + (2 ^ 64 - 1) + 1) with (rp_active s1 + 1 * 2 ^ 64) by lia; rewrite N.mod_add by lia; symmetry; now apply N.mod_small).
    replace (firstn (length (rp_conns s0)) (rp_conns s0 ++ [rp_next_cid s1]) ++ skipn (S (length (rp_conns s0))) (rp_conns s0 ++ [rp_next_cid s1])) with (rp_conns s1)
      by (rewrite C2, firstn_app, firstn_all, Nat.sub_diag; cbn [firstn]; rewrite app_nil_r, skipn_all2 by (rewrite app_length; cbn [length]; lia); now rewrite app_nil_r).
    reflexivity. }
  exists o1, (snd (rp_run max min auth co D s1 after)).
  assert (G : (match res with Some (Some addr) => match auth with Some _ => (s1, [], true) | None => (s1, [], true) end | _ => (s1, [RGone (rp_next_cid s0)], true) end) = (s1, [RGone (rp_next_cid s0)], true)) by (destruct RS as [-> | ->]; reflexivity).
  assert (SR := sh_run max min auth co D (rp_next_cid s0) after s1 ltac:(lia)).
  destruct RS as [-> | ->]; rewrite Q, SR, C1; destruct (rp_run max min auth co D s1 after) as [s2 o2]; cbn [fst snd shs rp_active app]; (split; [reflexivity|split; [|reflexivity]]); rewrite <- ?app_assoc; reflexivity.
Qed.

(*@example A client (address 7) is being served; the listener fails once while it sends a request; another client comes and gets number 2
    instead of 1. *)
Lemma C93_example_reply_pf :
  forall D, let idle := mkPenv true true true (Some 0) NxPending in
  let m := rr_new 5 x00 [x61] in
  let run := rp_run (Some 2) 0 None None D rp_init in
  let before := [VAccept; VConn 0 (Some (Some 7))] in
  let during := [VPeer 7 (mkPenv true true true (Some 0) (NxMsg m)); VRecv; VRespond 0 [x62]; VPeer 7 idle; VPeer 7 idle] in
  let after := [VAccept; VConn 0 (Some (Some 8)); VAccept] in
  Forall rep_serving during /\ rp_active (fst (run before)) = 1 /\
  snd (run (before ++ VAccept :: during ++ VConn 0 None :: after)) =
    [RAccepted 0; ROpen 0 7] ++ RAccepted 1 :: snd (rp_run (Some 2) 0 None None D (fst (run before)) during) ++ RGone 1 :: [RAccepted 2; ROpen 2 8; RRefused] /\
  snd (run (before ++ during ++ after)) =
    [RAccepted 0; ROpen 0 7] ++ snd (rp_run (Some 2) 0 None None D (fst (run before)) during) ++ [RAccepted 1; ROpen 1 8; RRefused].
Proof. intros D. cbv zeta. split; [repeat constructor|]. repeat split; vm_compute; reflexivity. Qed.

(** ** The publisher *)
Section Pub.
Variables (max : option N) (buf min : N) (auth : option (bytes -> bool)) (co : option compressor).
Notation act := (pb_act max buf min auth co).
Notation run := (pb_run max buf min auth co).
Variable n : N.
Notation sh := (later n).
Definition qshs (s : pb) : pb :=
  mkPb (pb_active s) (map sh (pb_conns s)) (map sh (pb_auths s)) (map (fun kv : N * sess => (sh (fst kv), snd kv)) (pb_sess s)) (pb_hist s) (pb_closed s) (pb_next_cid s + 1) (pb_tx s).

Lemma sh_inj a b : sh a = sh b -> a = b.
Proof using. unfold later. destruct (N.ltb_spec a n), (N.ltb_spec b n); lia. Qed.
Lemma kmap_mget {V} c (m : list (N * V)) : mget (sh c) (map (fun kv => (sh (fst kv), snd kv)) m) = mget c m.
Proof using. induction m as [|[a b] m IH]; cbn [map mget fst snd]; [reflexivity|]. destruct (eq_dec (sh c) (sh a)) as [E|E], (eq_dec c a) as [E'|E']; try reflexivity; [apply sh_inj in E; congruence|congruence|exact IH]. Qed.
Lemma kmap_mset {V} c v (m : list (N * V)) : map (fun kv => (sh (fst kv), snd kv)) (mset c v m) = mset (sh c) v (map (fun kv => (sh (fst kv), snd kv)) m).
Proof using. induction m as [|[a b] m IH]; cbn [map mset fst snd]; [reflexivity|]. destruct (eq_dec (sh c) (sh a)) as [E|E], (eq_dec c a) as [E'|E']; cbn [map fst snd]; try reflexivity; [apply sh_inj in E; congruence|congruence|now rewrite IH]. Qed.
Lemma kmap_mdel {V} c (m : list (N * V)) : map (fun kv => (sh (fst kv), snd kv)) (mdel c m) = mdel (sh c) (map (fun kv => (sh (fst kv), snd kv)) m).
Proof using. induction m as [|[a b] m IH]; cbn [map mdel fst snd]; [reflexivity|]. destruct (eq_dec (sh c) (sh a)) as [E|E], (eq_dec c a) as [E'|E']; cbn [map fst snd]; try (apply sh_inj in E; congruence); try congruence; now rewrite IH. Qed.

Lemma sh_sess c e h cl x : sn_iter buf (sh c) e h cl x = let '(x', d, o, r) := sn_iter buf c e h cl x in (x', d, map (pub_later n) o, r).
Proof using.
  unfold sn_iter. cbv zeta. destruct (s_ready e); [|reflexivity]. cbn [sn_pending]. destruct (sn_pending x); [destruct (s_send e); reflexivity|]. cbn [sn_pos].
  destruct (bcast_recv (bcast_cap buf) (sn_pos x) (blen h) cl); try reflexivity.
  - destruct (nth_error h (N.to_nat (sn_pos x))) as [p|]; [|reflexivity]. cbn [sn_filter sn_seq]. destruct (trie_contains (sn_filter x) (pm_topic p)); [|reflexivity]. destruct (pub_into_wire (s_now e) (sn_seq x) (pm_topic p) (pm_body p)); reflexivity.
  - destruct (s_next e); reflexivity.
Qed.
Lemma sh_open c s : pb_open (sh c) (qshs s) = let (s', o) := pb_open c s in (qshs s', map (pub_later n) o).
Proof using. unfold pb_open, qshs. cbn [pb_active pb_conns pb_auths pb_sess pb_hist pb_closed pb_next_cid pb_tx]. now rewrite kmap_mset. Qed.
Lemma qsh_decr s : pb_decr (qshs s) = qshs (pb_decr s). Proof using. reflexivity. Qed.
Definition qdrop_auth (k : nat) (s : pb) := mkPb (pb_active s) (pb_conns s) (firstn k (pb_auths s) ++ skipn (S k) (pb_auths s)) (pb_sess s) (pb_hist s) (pb_closed s) (pb_next_cid s) (pb_tx s).
Definition qdrop_conn (k : nat) (s : pb) := mkPb (pb_active s) (firstn k (pb_conns s) ++ skipn (S k) (pb_conns s)) (pb_auths s) (pb_sess s) (pb_hist s) (pb_closed s) (pb_next_cid s) (pb_tx s).
Lemma qsh_drop_auth k s : qdrop_auth k (qshs s) = qshs (qdrop_auth k s).
Proof using. unfold qdrop_auth, qshs. cbn [pb_active pb_conns pb_auths pb_sess pb_hist pb_closed pb_next_cid pb_tx]. now rewrite map_app, firstn_map, skipn_map. Qed.
Lemma qsh_drop_conn k s : qdrop_conn k (qshs s) = qshs (qdrop_conn k s).
Proof using. unfold qdrop_conn, qshs. cbn [pb_active pb_conns pb_auths pb_sess pb_hist pb_closed pb_next_cid pb_tx]. now rewrite map_app, firstn_map, skipn_map. Qed.
Lemma pb_auth_eq k input ok s : pb_auth auth k input ok s =
  match nth_error (pb_auths s) k, auth with
  | Some cid, Some a =>
    match auth_server a ok input with
    | (AuthOk id, w, _) => let (s2, o2) := pb_open cid (qdrop_auth k s) in (s2, [QAuthReply cid w; QAuthed cid input id] ++ o2, true)
    | (AuthErr, w, _) => (pb_decr (qdrop_auth k s), [QAuthReply cid w; QGone cid], true)
    | (AuthPanic, _, _) => (qdrop_auth k s, [QPanicked cid], false)
    | (AuthRunning, _, _) => (s, [], false)
    end
  | _, _ => (s, [], false)
  end.
Proof using. reflexivity. Qed.
Definition qadd_auth (c : N) (s : pb) := mkPb (pb_active s) (pb_conns s) (pb_auths s ++ [c]) (pb_sess s) (pb_hist s) (pb_closed s) (pb_next_cid s) (pb_tx s).
Lemma pb_conn_eq k res s : pb_conn auth k res s =
  match nth_error (pb_conns s) k with
  | None => (s, [], false)
  | Some cid =>
    match res with
    | Some true => match auth with
                   | Some _ => (qadd_auth cid (qdrop_conn k s), [], true)
                   | None => let (s2, o2) := pb_open cid (qdrop_conn k s) in (s2, o2, true)
                   end
    | _ => (pb_decr (qdrop_conn k s), [QGone cid], true)
    end
  end.
Proof using. reflexivity. Qed.
Definition qkeep (s : pb) ss d := mkPb (pb_active s) (pb_conns s) (pb_auths s) ss (pb_hist s) (pb_closed s) (pb_next_cid s) (pb_tx s + d).
Lemma pb_session_eq c e s : pb_session buf c e s =
  match mget c (pb_sess s) with
  | None => (s, [], None)
  | Some x => match sn_iter buf c e (pb_hist s) (pb_closed s) x with
    | (x', d, o, r) => match r with
      | SCont | SPend => (qkeep s (mset c x' (pb_sess s)) d, o, Some r)
      | SDone => (pb_decr (qkeep s (mdel c (pb_sess s)) d), o ++ [QGone c], Some r)
      | SCrash => (pb_decr (qkeep s (mdel c (pb_sess s)) d), o ++ [QCrashed c], Some r)
      end end end.
Proof using. reflexivity. Qed.
Lemma qsh_keep s ss d : qkeep (qshs s) (map (fun kv : N * sess => (sh (fst kv), snd kv)) ss) d = qshs (qkeep s ss d). Proof using. reflexivity. Qed.

Lemma qsh_act s ev : n <= pb_next_cid s -> act (qshs s) (pub_step n ev) = let (s', o) := act s ev in (qshs s', map (pub_later n) o).
Proof using.
  intros LE. destruct ev as [c e|k input ok|k res| |t p|t p|]; cbn [pb_act pub_step].
  - rewrite !pb_session_eq. cbn [qshs pb_sess pb_hist pb_closed]. fold (qshs s). rewrite kmap_mget. destruct (mget c (pb_sess s)) as [x|]; [|reflexivity]. rewrite sh_sess.
    destruct (sn_iter buf c e (pb_hist s) (pb_closed s) x) as [[[x' d] o] r].
    destruct r; rewrite <- ?kmap_mset, <- ?kmap_mdel, qsh_keep, ?qsh_decr, ?map_app; reflexivity.
  - rewrite !pb_auth_eq, qsh_drop_auth. cbn [qshs pb_auths]. fold (qshs s). rewrite nth_error_map. destruct (nth_error (pb_auths s) k) as [c|]; cbn [option_map]; [|reflexivity]. destruct auth as [au|]; [|reflexivity].
    destruct (auth_server au ok input) as [[[id| | |] w] rest]; try reflexivity. rewrite sh_open. destruct (pb_open c (qdrop_auth k s)) as [s2 o2]. now rewrite map_app.
  - rewrite !pb_conn_eq, qsh_drop_conn. cbn [qshs pb_conns]. fold (qshs s). rewrite nth_error_map. destruct (nth_error (pb_conns s) k) as [c|]; cbn [option_map]; [|reflexivity]. destruct res as [[|]|]; [|reflexivity|reflexivity].
    destruct auth as [au|].
    + cbn [map]. f_equal. unfold qadd_auth, qshs. cbn [pb_active pb_conns pb_auths pb_sess pb_hist pb_closed pb_next_cid pb_tx]. rewrite !map_app. reflexivity.
    + rewrite sh_open. destruct (pb_open c (qdrop_conn k s)) as [s2 o2]. reflexivity.
  - unfold pb_accept. cbn [qshs pb_active pb_next_cid]. destruct (match max with Some m => m <=? pb_active s | None => false end); [reflexivity|].
    cbn [map pub_later]. rewrite (later_ge _ _ LE). f_equal. unfold qshs, pb_incr, pb_with_active. cbn [pb_active pb_conns pb_auths pb_sess pb_hist pb_closed pb_next_cid pb_tx]. rewrite map_app. cbn [map]. now rewrite (later_ge _ _ LE).
  - unfold pb_send. destruct (publish_outgoing min co p); [|reflexivity]. cbn [qshs pb_closed]. destruct (pb_closed s); reflexivity.
  - unfold pb_send. destruct (try_publish_outgoing min co p); [|reflexivity]. cbn [qshs pb_closed]. destruct (pb_closed s); reflexivity.
  - cbn [qshs pb_closed]. destruct (pb_closed s); reflexivity.
Qed.
End Pub.
Section Pub2.
Variables (max : option N) (buf min : N) (auth : option (bytes -> bool)) (co : option compressor).
Notation act := (pb_act max buf min auth co).
Notation run := (pb_run max buf min auth co).

(** All numbers are below the next one. *)
Definition qbelow (s : pb) : Prop := pb_active s < 2 ^ 64 /\ Forall (fun c => c < pb_next_cid s) (pb_conns s) /\ Forall (fun c => c < pb_next_cid s) (pb_auths s) /\ Forall (fun c => c < pb_next_cid s) (mkeys (pb_sess s)).
Lemma forall_mset {V} (P : N -> Prop) c (v : V) m : P c -> Forall P (mkeys m) -> Forall P (mkeys (mset c v m)).
Proof using. intros H. induction m as [|[a b] m IH]; cbn [mkeys map mset fst]; intros F; [repeat constructor; exact H|]. inversion F as [|? ? X Y]; subst. destruct (eq_dec c a); cbn [map fst]; constructor; auto. Qed.
Lemma forall_mdel {V} (P : N -> Prop) c (m : list (N * V)) : Forall P (mkeys m) -> Forall P (mkeys (mdel c m)).
Proof using. induction m as [|[a b] m IH]; cbn [mkeys map mdel fst]; intros F; [constructor|]. inversion F as [|? ? X Y]; subst. destruct (eq_dec c a); cbn [map fst]; [exact (IH Y)|constructor; [exact X|exact (IH Y)]]. Qed.
Lemma mget_forall {V} (P : N -> Prop) c (v : V) m : mget c m = Some v -> Forall P (mkeys m) -> P c.
Proof using. intros G F. rewrite Forall_forall in F. apply F. destruct (in_dec N.eq_dec c (mkeys m)) as [X|X]; [exact X|]. apply mget_not_keys in X. congruence. Qed.
Lemma qbelow_decr s : qbelow s -> qbelow (pb_decr s).
Proof using. intros (A & B & C & E). repeat split; try assumption. apply wrap_lt. Qed.
Lemma qbelow_open c s : qbelow s -> c < pb_next_cid s -> qbelow (fst (pb_open c s)).
Proof using. intros (A & B & C & E) H. repeat split; try assumption. cbn [pb_open fst pb_sess pb_next_cid]. now apply forall_mset. Qed.

Lemma act_below s ev : qbelow s -> qbelow (fst (act s ev)).
Proof using.
  intros Q. pose proof Q as (A & B & C & E). destruct ev as [c e|k input ok|k res| |t p|t p|]; cbn [pb_act].
  - rewrite pb_session_eq. destruct (mget c (pb_sess s)) as [x|] eqn:G; [|exact Q]. destruct (sn_iter buf c e (pb_hist s) (pb_closed s) x) as [[[x' d] o] r].
    assert (K1 : forall v, qbelow (qkeep s (mset c v (pb_sess s)) d)). { intros v. repeat split; try assumption. cbn [qkeep pb_sess pb_next_cid]. apply forall_mset; [|exact E]. exact (mget_forall (fun c => c < pb_next_cid s) _ _ _ G E). }
    assert (K2 : qbelow (qkeep s (mdel c (pb_sess s)) d)). { repeat split; try assumption. cbn [qkeep pb_sess pb_next_cid]. now apply forall_mdel. }
    destruct r; cbn [fst]; auto; now apply qbelow_decr.
  - rewrite pb_auth_eq. destruct (nth_error (pb_auths s) k) as [c|] eqn:G; [|exact Q]. destruct auth as [au|]; [|exact Q].
    assert (K : qbelow (qdrop_auth k s)). { repeat split; try assumption. cbn [qdrop_auth pb_auths pb_next_cid]. now apply forall_drop. }
    assert (L : c < pb_next_cid s) by (rewrite Forall_forall in C; apply C; eapply nth_error_In; eauto).
    destruct (auth_server au ok input) as [[[id| | |] w] rest]; cbn [fst]; auto; [|now apply qbelow_decr]. pose proof (qbelow_open c _ K L) as X. destruct (pb_open c (qdrop_auth k s)). exact X.
  - rewrite pb_conn_eq. destruct (nth_error (pb_conns s) k) as [c|] eqn:G; [|exact Q].
    assert (K : qbelow (qdrop_conn k s)). { repeat split; try assumption. cbn [qdrop_conn pb_conns pb_next_cid]. now apply forall_drop. }
    assert (L : c < pb_next_cid s) by (rewrite Forall_forall in B; apply B; eapply nth_error_In; eauto).
    destruct res as [[|]|]; cbn [fst]; try (now apply qbelow_decr). destruct auth as [au|]; cbn [fst].
    + destruct K as (K1 & K2 & K3 & K4). repeat split; try assumption. cbn [qadd_auth pb_auths pb_next_cid]. apply Forall_app. split; [exact K3|]. repeat constructor. exact L.
    + pose proof (qbelow_open c _ K L) as X. destruct (pb_open c (qdrop_conn k s)). exact X.
  - unfold pb_accept. destruct (match max with Some m => m <=? pb_active s | None => false end); [exact Q|]. cbn [fst]. unfold qbelow. cbn [pb_incr pb_with_active pb_active pb_conns pb_auths pb_sess pb_next_cid].
    split; [apply wrap_lt|]. split; [apply Forall_app; split; [|repeat constructor; lia]|split]; (eapply Forall_impl; [|eassumption]); cbn; intros; lia.
  - unfold pb_send. destruct (publish_outgoing min co p); [|exact Q]. destruct (pb_closed s); exact Q.
  - unfold pb_send. destruct (try_publish_outgoing min co p); [|exact Q]. destruct (pb_closed s); exact Q.
  - destruct (pb_closed s); exact Q.
Qed.
Lemma run_qbelow : forall evs s, qbelow s -> qbelow (fst (run s evs)).
Proof using. induction evs as [|ev evs IH]; intros s Q; [exact Q|]. cbn [pb_run]. pose proof (act_below s ev Q) as X. destruct (act s ev) as [s1 o1]. specialize (IH s1 X). destruct (run s1 evs) as [s2 o2]. exact IH. Qed.

Definition qplus (s : pb) : pb := mkPb (wrap64 (pb_active s + 1)) (pb_conns s ++ [pb_next_cid s]) (pb_auths s) (pb_sess s) (pb_hist s) (pb_closed s) (pb_next_cid s + 1) (pb_tx s).
Lemma qplus_decr s : pb_decr (qplus s) = qplus (pb_decr s).
Proof using. unfold pb_decr, qplus, pb_with_active. cbn [pb_active pb_conns pb_auths pb_sess pb_hist pb_closed pb_next_cid pb_tx]. now rewrite wrap_swap. Qed.
Lemma qplus_act s ev : pub_serving ev -> act (qplus s) ev = (let (s', o) := act s ev in (qplus s', o)) /\ pb_next_cid (fst (act s ev)) = pb_next_cid s /\ pb_conns (fst (act s ev)) = pb_conns s.
Proof using.
  intros SV. destruct ev as [c e|k input ok|k res| |t p|t p|]; try contradiction; cbn [pb_act].
  - rewrite !pb_session_eq. cbn [qplus pb_sess pb_hist pb_closed]. fold (qplus s). destruct (mget c (pb_sess s)) as [x|]; [|auto].
    destruct (sn_iter buf c e (pb_hist s) (pb_closed s) x) as [[[x' d] o] r]. destruct r; auto; (split; [|auto]); match goal with |- (pb_decr (qkeep _ ?S d), _) = _ => change (qkeep (qplus s) S d) with (qplus (qkeep s S d)) end; now rewrite qplus_decr.
  - rewrite !pb_auth_eq. cbn [qplus pb_auths]. fold (qplus s). change (qdrop_auth k (qplus s)) with (qplus (qdrop_auth k s)). destruct (nth_error (pb_auths s) k) as [c|]; [|auto]. destruct auth as [au|]; [|auto].
    destruct (auth_server au ok input) as [[[id| | |] w] rest]; auto. rewrite qplus_decr. auto.
  - unfold pb_send. destruct (publish_outgoing min co p); [|auto]. cbn [qplus pb_closed]. destruct (pb_closed s); auto.
  - unfold pb_send. destruct (try_publish_outgoing min co p); [|auto]. cbn [qplus pb_closed]. destruct (pb_closed s); auto.
  - cbn [qplus pb_closed]. destruct (pb_closed s); auto.
Qed.
Lemma qplus_run : forall evs s, Forall pub_serving evs ->
  run (qplus s) evs = (let (s', o) := run s evs in (qplus s', o)) /\ pb_next_cid (fst (run s evs)) = pb_next_cid s /\ pb_conns (fst (run s evs)) = pb_conns s.
Proof using.
  induction evs as [|ev evs IH]; intros s F; cbn [pb_run]; [auto|]. assert (F1 : pub_serving ev) by now inversion F. assert (F2 : Forall pub_serving evs) by now inversion F.
  destruct (qplus_act s ev F1) as (E & C1 & C2). rewrite E. destruct (act s ev) as [s1 o1]. cbn [fst] in *. destruct (IH s1 F2) as (E2 & C3 & C4). rewrite E2. destruct (run s1 evs) as [s2 o2]. cbn [fst] in *. split; [reflexivity|]. split; congruence.
Qed.
Lemma qnext_mono s ev : pb_next_cid s <= pb_next_cid (fst (act s ev)) /\ pb_next_cid (fst (act s ev)) = pb_next_cid s + pub_admissions (snd (act s ev)).
Proof using.
  destruct ev as [c e|k input ok|k res| |t p|t p|]; cbn [pb_act].
  - rewrite pb_session_eq. destruct (mget c (pb_sess s)) as [x|]; [|cbn; lia].
    assert (Z : forall y, pub_admissions (snd (fst (sn_iter buf c e (pb_hist s) (pb_closed s) y))) = 0).
    { intros y. unfold sn_iter. cbv zeta. destruct (s_ready e); [|reflexivity]. cbn [sn_pending]. destruct (sn_pending y); [destruct (s_send e); reflexivity|]. cbn [sn_pos].
      destruct (bcast_recv (bcast_cap buf) (sn_pos y) (blen (pb_hist s)) (pb_closed s)); try reflexivity.
      - destruct (nth_error (pb_hist s) (N.to_nat (sn_pos y))) as [p|]; [|reflexivity]. cbn [sn_filter sn_seq]. destruct (trie_contains (sn_filter y) (pm_topic p)); [|reflexivity]. destruct (pub_into_wire (s_now e) (sn_seq y) (pm_topic p) (pm_body p)); reflexivity.
      - destruct (s_next e); reflexivity. }
    specialize (Z x). destruct (sn_iter buf c e (pb_hist s) (pb_closed s) x) as [[[x' d] o] r]. cbn [fst snd] in Z.
    assert (Y : forall z, pub_admissions (o ++ [z]) = match z with QAccepted _ => 1 | _ => 0 end). { intros z. unfold pub_admissions, blen in *. rewrite filter_app, app_length. destruct z; cbn [filter length]; lia. }
    destruct r; cbn [fst snd qkeep pb_decr pb_with_active pb_next_cid]; rewrite ?Y, ?Z; lia.
  - rewrite pb_auth_eq. destruct (nth_error (pb_auths s) k) as [c|]; [|cbn; lia]. destruct auth as [au|]; [|cbn; lia]. destruct (auth_server au ok input) as [[[id| | |] w] rest]; cbn; lia.
  - rewrite pb_conn_eq. destruct (nth_error (pb_conns s) k) as [c|]; [|cbn; lia]. destruct res as [[|]|]; [destruct auth|..]; cbn; lia.
  - unfold pb_accept. destruct (match max with Some m => m <=? pb_active s | None => false end); cbn; lia.
  - unfold pb_send. destruct (publish_outgoing min co p); [destruct (pb_closed s)|]; cbn; lia.
  - unfold pb_send. destruct (try_publish_outgoing min co p); [destruct (pb_closed s)|]; cbn; lia.
  - destruct (pb_closed s); cbn; lia.
Qed.
Lemma qrun_next : forall evs s, pb_next_cid (fst (run s evs)) = pb_next_cid s + pub_admissions (snd (run s evs)).
Proof using.
  induction evs as [|ev evs IH]; intros s; [cbn; lia|]. cbn [pb_run]. destruct (qnext_mono s ev) as [_ M]. destruct (act s ev) as [s1 o1]. specialize (IH s1). destruct (run s1 evs) as [s2 o2]. cbn [fst snd] in *.
  unfold pub_admissions, blen in *. rewrite filter_app, app_length. lia.
Qed.
Lemma qsh_run n : forall evs s, n <= pb_next_cid s -> run (qshs n s) (map (pub_step n) evs) = let (s', o) := run s evs in (qshs n s', map (pub_later n) o).
Proof using.
  induction evs as [|ev evs IH]; intros s LE; cbn [pb_run map]; [reflexivity|]. rewrite (qsh_act max buf min auth co n s ev LE). destruct (qnext_mono s ev) as [M _]. destruct (act s ev) as [s1 o1]. cbn [fst] in M.
  rewrite (IH s1 ltac:(lia)). destruct (run s1 evs) as [s2 o2]. now rewrite map_app.
Qed.
Lemma qshs_below n s : qbelow s -> n = pb_next_cid s ->
  qshs n s = mkPb (pb_active s) (pb_conns s) (pb_auths s) (pb_sess s) (pb_hist s) (pb_closed s) (pb_next_cid s + 1) (pb_tx s).
Proof using.
  intros (_ & A & B & C) ->. unfold qshs. f_equal.
  - rewrite <- (map_id (pb_conns s)) at 2. apply map_ext_in. intros c H. rewrite Forall_forall in A. now apply later_lt, A.
  - rewrite <- (map_id (pb_auths s)) at 2. apply map_ext_in. intros c H. rewrite Forall_forall in B. now apply later_lt, B.
  - rewrite <- (map_id (pb_sess s)) at 2. apply map_ext_in. intros [c x] H. cbn. rewrite Forall_forall in C. rewrite later_lt; [reflexivity|]. apply C. apply (in_map fst) in H. exact H.
Qed.
End Pub2.

(*@prop Publisher: the same.  (The steps of sessions started later name them by their new numbers.) *)
Lemma C93_publisher_failed_accept_pf :
  forall max buf min auth co before during after res,
    (res = None \/ res = Some false) ->
    Forall pub_serving during ->
    let run := pb_run max buf min auth co in
    let s := fst (run pb_init before) in
    (forall m, max = Some m -> pb_active s < m) ->
    let n := pub_admissions (snd (run pb_init before)) in
    let k := length (pb_conns s) in
    exists o1 o2,
      snd (run pb_init (before ++ during ++ after)) = snd (run pb_init before) ++ o1 ++ o2 /\
      snd (run pb_init (before ++ WAccept :: during ++ WConn k res :: map (pub_step n) after)) =
        snd (run pb_init before) ++ QAccepted n :: o1 ++ QGone n :: map (pub_later n) o2 /\
      pb_active (fst (run pb_init (before ++ WAccept :: during ++ WConn k res :: map (pub_step n) after))) =
        pb_active (fst (run pb_init (before ++ during ++ after))).
Proof.
  intros max buf min auth co before during after res RS DU run s MX n k. subst run n k.
  assert (NX := qrun_next max buf min auth co before pb_init). cbn [pb_init pb_next_cid] in NX. rewrite N.add_0_l in NX. rewrite <- NX. fold s.
  assert (B : qbelow s). { apply run_qbelow. repeat split; try constructor; cbn; lia. }
  rewrite !PubDriverP.run_app. unfold s in *. destruct (pb_run max buf min auth co pb_init before) as [s0 L0]. cbn [fst snd] in *. clear s NX.
  rewrite PubDriverP.run_app. cbn [pb_run pb_act]. unfold pb_accept. replace (match max with Some m => m <=? pb_active s0 | None => false end) with false by (destruct max as [m|]; [specialize (MX m eq_refl); lia|reflexivity]).
  change (pb_incr _) with (qplus s0). rewrite PubDriverP.run_app. destruct (qplus_run max buf min auth co during s0 DU) as (E & C1 & C2). rewrite E.
  assert (B1 := run_qbelow max buf min auth co during s0 B).
  destruct (pb_run max buf min auth co s0 during) as [s1 o1] eqn:R1. cbn [fst] in *.
  cbn [pb_run pb_act]. rewrite pb_conn_eq. cbn [qplus pb_conns]. fold (qplus s1). rewrite C2.
  rewrite nth_error_app2 by lia. rewrite Nat.sub_diag. cbn [nth_error].
  assert (Q : pb_decr (qdrop_conn (length (pb_conns s0)) (qplus s1)) = qshs (pb_next_cid s0) s1).
  { rewrite (qshs_below (pb_next_cid s0) s1 B1 (eq_sym C1)). unfold pb_decr, pb_with_active, qdrop_conn, qplus. cbn [pb_active pb_conns pb_auths pb_sess pb_hist pb_closed pb_next_cid pb_tx]. rewrite C2.
    f_equal.
    - destruct B1 as (A & _). rewrite wrap_swap. unfold wrap64 in *. rewrite N.add_mod_idemp_l by lia. replace (pb_active s1 + (2 ^ 64 - 1) + 1) with (pb_active s1 + 1 * 2 ^ 64) by lia. rewrite N.mod_add by lia. now apply N.mod_small.
    - rewrite firstn_app, firstn_all, Nat.sub_diag. cbn [firstn]. rewrite app_nil_r. rewrite skipn_all2 by (rewrite app_length; cbn [length]; lia). now rewrite app_nil_r. }
  exists o1, (snd (pb_run max buf min auth co s1 after)).
  assert (SR := qsh_run max buf min auth co (pb_next_cid s0) after s1 ltac:(lia)).
  destruct RS as [-> | ->]; rewrite Q, SR, C1; destruct (pb_run max buf min auth co s1 after) as [s2 o2]; cbn [fst snd qshs pb_active app]; (split; [reflexivity|split; [|reflexivity]]); rewrite <- ?app_assoc; reflexivity.
Qed.

(*@example Two subscribers with a limit of two, the listener failing in between. *)
Lemma C93_example_publisher_pf :
  let run := pb_run (Some 2) 4 0 None None pb_init in
  let before := [WAccept; WConn 0 (Some true)] in
  let during := [WPublish [x61] [x62]; WSession 0 (mkSenv true true true true 0 PnPending)] in
  let after := [WAccept; WConn 0 (Some true); WSession 1 (mkSenv true true true true 0 PnEof); WAccept] in
  Forall pub_serving during /\ pub_admissions (snd (run before)) = 1 /\ pb_active (fst (run before)) = 1 /\
  snd (run (before ++ WAccept :: during ++ WConn 0 None :: map (pub_step 1) after)) =
    [QAccepted 0; QOpen 0; QAccepted 1; QPublished (mkPm [x61] (om_new [x62])); QTook 0 0; QGone 1; QAccepted 2; QOpen 2; QGone 2; QAccepted 3].
Proof. cbv zeta. split; [repeat constructor|]. repeat split; vm_compute; reflexivity. Qed.
