(** The joint model of a request and a reply socket: end-to-end facts. *)
From Coq Require Import ZArith Permutation Sorting.Sorted.
From Verif Require Import Model.Base Model.Map Model.Framed Model.WireReqRep Model.WireAuth Model.Compression Model.Backoff Model.Handshake Model.ReqDriver Model.RepDriver Model.Net Model.ReqRepNet
  Spec.Wire Spec.Stream Spec.AuthSpec Spec.CompressSpec Spec.ReqSpec Spec.RepSpec Spec.NetSpec
  Proofs.BaseP Proofs.MapP Proofs.FramedP2 Proofs.ReqRepP Proofs.AuthP Proofs.NetP
  Proofs.ReqDriverP Proofs.RepDriverP Proofs.RepDriverP2 Proofs.RepDriverP5 Proofs.RepNetP Proofs.ReqRepNetP Proofs.ReqRepNetP2 Proofs.ReqRepNetP3 Proofs.ReqRepNetP4.
From Verif Require Proofs.T_Req Proofs.T_Rep Proofs.T_Compress.
Local Open Scope N_scope.

(** ** Requests pass through the channel to the application *)
Ltac fins Hz := cbn [In snd app] in Hz; decompose [or] Hz; try contradiction; subst; reflexivity.
Section A.
Variables (max : option N) (min : N) (auth : option (bytes -> bool)) (sco : option compressor) (D : decompressors).
Definition is_app (x : rout) : bool := match x with RReceived _ | RResponded _ _ _ => true | _ => false end.
Definition gots (L : list rout) (s : rp) : Prop :=
  (forall q, In q (rp_chan s) -> In (RYield q) L) /\
  (forall q, In (RReceived q) L -> In (RYield q) L) /\
  (forall r, In r (rp_held s) -> exists q, In (RReceived q) L /\ q_rid q = r) /\
  (forall r x b, In (RResponded r x b) L -> exists q, In (RReceived q) L /\ q_rid q = r).
Lemma gots_same L s o s' : gots L s -> none_of is_app o -> (forall q, In q (rp_chan s') -> In q (rp_chan s) \/ In (RYield q) o) -> (forall r, In r (rp_held s') -> In r (rp_held s)) -> gots (L ++ o) s'.
Proof using.
  intros (G1 & G2 & G3 & G4) No Hc Hh. split; [|split; [|split]].
  - intros q H. apply in_or_app. destruct (Hc q H) as [H'|H']; [left; auto|right; exact H'].
  - intros q H. apply (in_none is_app) in H; [|exact No|reflexivity]. apply in_or_app; left; auto.
  - intros r H. destruct (G3 r (Hh r H)) as (q & Hq & E). exists q. split; [apply in_or_app; left; exact Hq|exact E].
  - intros r x b H. apply (in_none is_app) in H; [|exact No|reflexivity]. destruct (G4 _ _ _ H) as (q & Hq & E). exists q. split; [apply in_or_app; left; exact Hq|exact E].
Qed.
Lemma gots_prim L s o s' : gots L s -> prim max min auth sco D s o s' -> gots (L ++ o) s'.
Proof using.
  intros G P. destruct P; try (eapply gots_same; [exact G|intros z Hz; fins Hz| |];
     [let h := fresh in intros q0 h; left; exact h|let h := fresh in intros r0 h; exact h]; fail).
  - eapply gots_same; [exact G|..].
    + intros z Hz. unfold rp_on_request in Hz. destruct (try_decompress D _ _); [destruct (rp_dropped _ || _)|]; cbn in Hz; fins Hz.
    + intros q0. unfold rp_on_request. destruct (try_decompress D _ _); [destruct (rp_dropped _ || _)|]; cbn; auto. intros Hh. apply in_app_or in Hh. destruct Hh as [Hh|[<-|[]]]; auto.
    + intros r0. unfold rp_on_request. destruct (try_decompress D _ _); [destruct (rp_dropped _ || _)|]; cbn; auto.
  - eapply gots_same; [exact G| |let h := fresh in intros q0 h; left; exact h|let h := fresh in intros r0 h; exact h].
    intros z Hz. apply in_app_or in Hz. destruct Hz as [Hz|Hz]; [fins Hz|]. apply insert_log in Hz. destruct Hz as [->|(p & _ & _ & ->)]; reflexivity.
  - eapply gots_same; [exact G| |let h := fresh in intros q0 h; left; exact h|let h := fresh in intros r0 h; exact h].
    intros z Hz. apply insert_log in Hz. destruct Hz as [->|(p & _ & _ & ->)]; reflexivity.
  - destruct G as (G1 & G2 & G3 & G4). split; [|split; [|split]].
    + intros q0 Hk. apply in_or_app; left. apply G1. rewrite H. right; exact Hk.
    + intros q0 Hk. apply in_or_app; left. apply in_app_or in Hk. destruct Hk as [Hk|[Hk|[]]]; [apply G2; exact Hk|]. inversion Hk; subst. apply G1. rewrite H. left; reflexivity.
    + intros r [<-|Hr]; [exists q; split; [apply in_or_app; right; left; reflexivity|reflexivity]|]. destruct (G3 _ Hr) as (q0 & Hq & E). exists q0. split; [apply in_or_app; left; exact Hq|exact E].
    + intros r x b Hk. apply in_app_or in Hk. destruct Hk as [Hk|[Hk|[]]]; [|discriminate]. destruct (G4 _ _ _ Hk) as (q0 & Hq & E). exists q0. split; [apply in_or_app; left; exact Hq|exact E].
  - destruct G as (G1 & G2 & G3 & G4). split; [|split; [|split]].
    + intros q0 Hj. apply in_or_app; left. apply G1, Hj.
    + intros q0 Hj. apply in_or_app; left. apply in_app_or in Hj. destruct Hj as [Hj|[Hj|[]]]; [apply G2; exact Hj|discriminate].
    + intros r Hr. apply in_sdel in Hr. destruct (G3 r (proj1 Hr)) as (q0 & Hq & E). exists q0. split; [apply in_or_app; left; exact Hq|exact E].
    + intros r x0 b Hj. apply in_app_or in Hj. destruct Hj as [Hj|[Hj|[]]]; [destruct (G4 _ _ _ Hj) as (q0 & Hq & E)|inversion Hj; subst; destruct (G3 _ H) as (q0 & Hq & E)]; (exists q0; split; [apply in_or_app; left; exact Hq|exact E]).
  - destruct G as (G1 & G2 & G3 & G4). split; [|split; [|split]].
    + intros q0 Hj. apply in_or_app; left. apply G1, Hj.
    + intros q0 Hj. apply in_or_app; left. apply in_app_or in Hj. destruct Hj as [Hj|[Hj|[]]]; [apply G2; exact Hj|discriminate].
    + intros r Hr. apply in_sdel in Hr. destruct (G3 r (proj1 Hr)) as (q0 & Hq & E). exists q0. split; [apply in_or_app; left; exact Hq|exact E].
    + intros r x0 b Hj. apply in_app_or in Hj. destruct Hj as [Hj|[Hj|[]]]; [destruct (G4 _ _ _ Hj) as (q0 & Hq & E)|inversion Hj; subst; destruct (G3 _ H) as (q0 & Hq & E)]; (exists q0; split; [apply in_or_app; left; exact Hq|exact E]).
  - eapply gots_same; [exact G|intros z Hz; fins Hz|let h := fresh in intros q0 h; left; exact h|]. intros r Hr. apply in_sdel in Hr. apply Hr.
  - eapply gots_same; [exact G| |intros q0 []|let h := fresh in intros r0 h; exact h]. intros z [<-|Hz]; [reflexivity|]. apply in_map_iff in Hz. destruct Hz as (q & <- & _). reflexivity.
Qed.
Lemma run_gots evs s L : rp_run max min auth sco D rp_init evs = (s, L) -> gots L s.
Proof using. apply (RepDriverP.run_inv max min auth sco D gots gots_prim). split; [intros q []|]. split; [intros q []|]. split; [intros r []|intros r x b []]. Qed.

(** A request the application holds or held came in with a frame. *)
Lemma received_incoming evs s L q : rp_run max min auth sco D rp_init evs = (s, L) -> In (RReceived q) L ->
  exists c m, In (RIncoming c (q_source q) (q_rid q) m) L /\ try_decompress D (rr_ctype m) (rr_payload m) = Some (q_msg q).
Proof using.
  intros R H. destruct (run_gots _ _ _ R) as (_ & G2 & _). apply G2 in H. apply in_split in H. destruct H as (a & b & E).
  destruct (run_yord max min auth sco D _ _ _ R) as (Y & _). destruct (Y _ _ _ E) as (b0 & c & m & E' & Dc). exists c, m. split; [|exact Dc]. rewrite E, E'. apply in_or_app; left. apply in_or_app; right; left; reflexivity.
Qed.
End A.

(** ** Sorted lists *)
Lemma ss_app {A} (R : A -> A -> Prop) a b : StronglySorted R (a ++ b) -> StronglySorted R a /\ StronglySorted R b /\ forall x y, In x a -> In y b -> R x y.
Proof.
  induction a as [|x a IH]; cbn; intros H; [split; [constructor|]; split; [exact H|intros ? ? []]|]. inversion H as [|? ? H1 H2]; subst. destruct (IH H1) as (I1 & I2 & I3).
  rewrite Forall_app in H2. destruct H2 as [H2 H3]. split; [constructor; assumption|]. split; [exact I2|]. intros u v [<-|Hu] Hv; [rewrite Forall_forall in H3; auto|auto].
Qed.
Lemma ss_seq n : forall k, StronglySorted N.lt (map N.of_nat (seq k n)).
Proof.
  induction n as [|n IH]; intros k; cbn; constructor; [apply IH|]. apply Forall_forall. intros x Hx. apply in_map_iff in Hx. destruct Hx as (j & <- & Hj). apply in_seq in Hj. lia.
Qed.
Lemma ss_nodup (l : list N) : StronglySorted N.lt l -> NoDup l.
Proof. induction 1 as [|x l H IH F]; constructor; [|exact IH]. intros Hx. rewrite Forall_forall in F. specialize (F _ Hx). lia. Qed.
Lemma taken_handed L m : In m (taken L) -> In m (handed L).
Proof. unfold taken, handed. rewrite !in_flat_map. intros (x & Hx & H). exists x. split; [exact Hx|]. destruct x as [| |m' [|]| | | |]; try contradiction. exact H. Qed.
Lemma ss_taken (L : list out) : StronglySorted N.lt (map rr_id (handed L)) -> StronglySorted N.lt (map rr_id (taken L)).
Proof.
  induction L as [|x L IH]; [intros _; constructor|]. destruct x as [|t c m|m b| | | |]; try exact IH.
  cbn [handed flat_map app map]. fold (handed L). intros H. inversion H as [|? ? H1 H2]; subst. destruct b; cbn [taken flat_map app map]; fold (taken L); [|apply IH; exact H1].
  constructor; [apply IH; exact H1|]. rewrite Forall_forall in *. intros z Hz. apply H2. apply in_map_iff in Hz. destruct Hz as (u & <- & Hu). apply in_map. apply taken_handed. exact Hu.
Qed.
