(** Subscriber: the history of one connection. *)
From Coq Require Import ZArith ZifyBool ZifyNat ZifyN Permutation.
From Verif Require Import Model.Base Model.Map Model.WirePubSub Model.Compression Model.Stats Model.Framed Model.WireAuth
  Model.Handshake Model.Utf8 Model.Backoff Model.JoinMap Model.PubDriver Model.SubDriver Spec.ReqSpec Spec.SubSpec Proofs.BaseP Proofs.MapP Proofs.SubDriverP.
From Verif Require Proofs.PubDriverP2.
Local Open Scope N_scope.

(** [Phi] holds of each entry together with what came before. *)
Definition every (Phi : list uout -> uout -> Prop) (L : list uout) : Prop := forall b x a, L = b ++ x :: a -> Phi b x.
Lemma every_nil Phi : every Phi [].
Proof. intros b x a E. destruct b; discriminate. Qed.
Lemma every_app Phi : forall o L, every Phi L -> (forall b x a, o = b ++ x :: a -> Phi (L ++ b) x) -> every Phi (L ++ o).
Proof.
  intros o L H K b x a E. destruct (PubDriverP2.split_app_list o _ _ _ _ E) as [(a' & _ & E2)|(b' & a' & E2 & -> & _)]; [now apply (H b x a')|eauto].
Qed.

Lemma tried_app c a b : tried c (a ++ b) = tried c a ++ tried c b. Proof. apply flat_map_app. Qed.
Lemma enqueued_app c a b : enqueued c (a ++ b) = enqueued c a ++ enqueued c b. Proof. apply flat_map_app. Qed.
Lemma got_app c a b : got c (a ++ b) = got c a ++ got c b. Proof. apply flat_map_app. Qed.
Lemma wired_app c a b : wired c (a ++ b) = wired c a ++ wired c b. Proof. apply flat_map_app. Qed.
Lemma received_on_app c a b : received_on c (a ++ b) = received_on c a ++ received_on c b. Proof. apply flat_map_app. Qed.
Lemma accepted_app c a b : accepted c (a ++ b) = accepted c a ++ accepted c b. Proof. apply flat_map_app. Qed.
Lemma latencies_app c a b : latencies c (a ++ b) = latencies c a ++ latencies c b. Proof. apply flat_map_app. Qed.
Lemma taken_app c a b : taken c (a ++ b) = taken c a ++ taken c b. Proof. apply flat_map_app. Qed.

(** These functions only look at the entries about the connection. *)
Lemma fm_on {B} c (f : uout -> list B) l : (forall x, about c x = false -> f x = []) -> flat_map f (on c l) = flat_map f l.
Proof.
  intros H. unfold on. induction l as [|x l IH]; cbn; [reflexivity|]. destruct (about c x) eqn:E; cbn; rewrite IH; [reflexivity|]. now rewrite (H _ E).
Qed.
Ltac fmon := apply fm_on; intros x; destruct x; cbn; try reflexivity; try destruct (eq_dec _ _); try discriminate; try reflexivity; repeat match goal with |- context [match ?q with TSent => _ | _ => _ end] => is_var q; destruct q end; reflexivity.
Lemma tried_on c l : tried c (on c l) = tried c l. Proof. fmon. Qed.
Lemma enqueued_on c l : enqueued c (on c l) = enqueued c l. Proof. fmon. Qed.
Lemma got_on c l : got c (on c l) = got c l. Proof. fmon. Qed.
Lemma wired_on c l : wired c (on c l) = wired c l. Proof. fmon. Qed.
Lemma received_on_on c l : received_on c (on c l) = received_on c l. Proof. fmon. Qed.
Lemma accepted_on c l : accepted c (on c l) = accepted c l. Proof. fmon. Qed.
Lemma latencies_on c l : latencies c (on c l) = latencies c l. Proof. fmon. Qed.
Lemma taken_on c l : taken c (on c l) = taken c l. Proof. fmon. Qed.
Lemma in_on c x l : about c x = true -> (In x (on c l) <-> In x l).
Proof. intros H. unfold on. rewrite filter_In. tauto. Qed.
Lemma split_on c b x a : about c x = true -> on c (b ++ x :: a) = on c b ++ x :: on c a.
Proof. intros H. rewrite on_app. cbn [on filter]. now rewrite H. Qed.

Definition endedL (c : N) (L : list uout) : Prop := In (UEnd c) L \/ In (UCrash c) L.
Definition closedL (c : N) (L : list uout) : Prop := exists l, In (UClosed c l) L.

Section P.
Variables (D : decompressors) (cid : N).

Ltac refl_id := repeat match goal with |- context [eq_dec cid cid] => destruct (eq_dec cid cid); [|congruence] | H : context [eq_dec cid cid] |- _ => destruct (eq_dec cid cid); [|congruence] end.
Ltac calc := cbn [tried enqueued got wired received_on accepted latencies taken flat_map app]; refl_id; rewrite ?app_nil_r.

(** What [ss_incoming] does. *)
Lemma incoming_cases now m x : exists r x', ss_incoming cid now m x = (x', [URecv cid m now r]) /\
  sc_addr x' = sc_addr x /\ sc_egress x' = sc_egress x /\ sc_cmds x' = sc_cmds x /\ sc_alive x' = sc_alive x /\ sc_held x' = sc_held x /\
  sc_rx x' = sc_rx x + blen (ps_payload m) /\ sc_lat x' = (match avg_update (sc_lat x) (now - ps_timestamp m) with Some a => a | None => sc_lat x end) /\
  (r = TClosed /\ sc_held x = false /\ sc_in x' = sc_in x \/
   r = TSent /\ sc_held x = true /\ blen (sc_in x) < IN_CAP /\ sc_in x' = sc_in x ++ [tmsg_of m] \/
   r = TFull /\ sc_held x = true /\ IN_CAP <= blen (sc_in x) /\ sc_in x' = sc_in x).
Proof using.
  unfold ss_incoming. destruct (sc_held x) eqn:H; cbn [negb].
  - destruct (N.ltb_spec (blen (sc_in x)) IN_CAP) as [Q|Q]; eexists _, _; (split; [reflexivity|]); cbn; rewrite ?H; do 7 (split; [reflexivity|]); right.
    + left. auto.
    + right. auto.
  - eexists _, _; (split; [reflexivity|]); cbn; rewrite ?H; do 7 (split; [reflexivity|]). left. auto.
Qed.
Lemma try_cases c x : exists r x', sc_try c x = (x', r) /\
  sc_addr x' = sc_addr x /\ sc_egress x' = sc_egress x /\ sc_in x' = sc_in x /\ sc_alive x' = sc_alive x /\ sc_held x' = sc_held x /\ sc_rx x' = sc_rx x /\ sc_lat x' = sc_lat x /\
  (r = TClosed /\ sc_alive x = false /\ sc_cmds x' = sc_cmds x \/
   r = TSent /\ sc_alive x = true /\ blen (sc_cmds x) < CMD_CAP /\ sc_cmds x' = sc_cmds x ++ [c] \/
   r = TFull /\ sc_alive x = true /\ CMD_CAP <= blen (sc_cmds x) /\ sc_cmds x' = sc_cmds x).
Proof using.
  unfold sc_try. destruct (sc_alive x) eqn:H; cbn [negb].
  - destruct (N.ltb_spec (blen (sc_cmds x)) CMD_CAP) as [Q|Q]; eexists _, _; (split; [reflexivity|]); cbn; rewrite ?H; do 7 (split; [reflexivity|]); right.
    + left. auto.
    + right. auto.
  - eexists _, _; (split; [reflexivity|]); cbn; rewrite ?H; do 7 (split; [reflexivity|]). left. auto.
Qed.

(** ** Life *)
Definition isopen (x : uout) : bool := match x with UOpen _ _ => true | _ => false end.
Definition lifeI (L : list uout) (y : option sconn) : Prop :=
  match y with
  | None => L = []
  | Some x => (exists L', L = UOpen cid (sc_addr x) :: L' /\ Forall (fun z => isopen z = false) L') /\
      (sc_alive x = false <-> endedL cid L) /\ (sc_held x = false <-> closedL cid L)
  end.

Ltac ins := repeat match goal with H : In _ (_ ++ _) |- _ => apply in_app_or in H; destruct H as [H|H] end.
Ltac inx H := cbn [In] in H; repeat (destruct H as [H|H]; [try discriminate H|]); try contradiction.

Lemma ended_app L o : endedL cid (L ++ o) <-> endedL cid L \/ endedL cid o.
Proof using. unfold endedL. rewrite !in_app_iff. tauto. Qed.
Lemma closed_app L o : closedL cid (L ++ o) <-> closedL cid L \/ closedL cid o.
Proof using. unfold closedL. split; [intros [l H]; apply in_app_or in H; destruct H; eauto|intros [[l H]|[l H]]; exists l; apply in_or_app; auto]. Qed.

Lemma life_keep L x o x' : lifeI L (Some x) -> sc_addr x' = sc_addr x -> sc_alive x' = sc_alive x -> sc_held x' = sc_held x ->
  Forall (fun z => match z with UOpen _ _ | UEnd _ | UCrash _ | UClosed _ _ => False | _ => True end) o -> lifeI (L ++ o) (Some x').
Proof using.
  intros ((L' & -> & H1) & H2 & H3) Ea El Eh F. split; [|split].
  - exists (L' ++ o). rewrite Ea. split; [reflexivity|]. apply Forall_app. split; [exact H1|]. eapply Forall_impl; [|exact F]. intros [] Hz; try contradiction; reflexivity.
  - rewrite El, ended_app, H2. split; [tauto|]. intros [|[Hi|Hi]]; [assumption|rewrite Forall_forall in F; apply F in Hi; contradiction..].
  - rewrite Eh, closed_app, H3. split; [tauto|]. intros [|[l Hi]]; [assumption|rewrite Forall_forall in F; apply F in Hi; contradiction].
Qed.

Lemma life_step L y o y' : lifeI L y -> cst D cid y o y' -> lifeI (L ++ o) y'.
Proof using.
  intros I C. destruct C as [a|x fl A|x m rest A E|x m rest ok A E|x c cs now m A E F|x c cs now A E F|x A E H|x now m A|x A|x c H|x H|x m rest H E T|x m rest p r H E T].
  - cbn in I. subst. cbn [app lifeI]. split; [exists []; split; [reflexivity|constructor]|]. split; (split; [discriminate|]).
    + intros [[Hi|[]]|[Hi|[]]]; discriminate.
    + intros [l [Hi|[]]]; discriminate.
  - apply (life_keep L x); auto.
  - apply (life_keep L x); auto.
  - apply (life_keep L x); auto.
  - apply (life_keep L x); auto.
  - destruct I as ((L' & -> & H1) & H2 & H3). split; [|split].
    + eexists. split; [reflexivity|]. apply Forall_app. split; [exact H1|repeat constructor].
    + split; [intros _; right; apply in_or_app; right; right; now left|reflexivity].
    + cbn [sc_finish sc_held]. rewrite closed_app, H3. split; [tauto|]. intros [|[l Hi]]; [assumption|inx Hi].
  - destruct I as ((L' & -> & H1) & H2 & H3). split; [|split].
    + eexists. split; [reflexivity|]. apply Forall_app. split; [exact H1|repeat constructor].
    + split; [intros _; left; apply in_or_app; right; now left|reflexivity].
    + cbn [sc_finish sc_held]. rewrite closed_app, H3. split; [tauto|]. intros [|[l Hi]]; [assumption|inx Hi].
  - destruct (incoming_cases now m x) as (r & x' & -> & Ea & _ & _ & El & Eh & _). cbn [fst snd]. apply (life_keep L x); auto.
  - apply (life_keep L x); auto.
  - destruct (try_cases c x) as (r & x' & -> & Ea & _ & _ & El & Eh & _). cbn [fst snd]. apply (life_keep L x); auto.
  - destruct I as ((L' & -> & H1) & H2 & H3). split; [|split].
    + eexists. split; [reflexivity|]. apply Forall_app. split; [exact H1|repeat constructor].
    + cbn [sc_release sc_alive]. rewrite ended_app, H2. split; [tauto|]. intros [|[Hi|Hi]]; [assumption|inx Hi..].
    + split; [intros _; eexists; apply in_or_app; right; now left|reflexivity].
  - apply (life_keep L x); auto.
  - apply (life_keep L x); auto.
Qed.

(** ** Commands *)
Definition cmdI (L : list uout) (y : option sconn) : Prop :=
  match y with
  | None => L = []
  | Some x => (sc_alive x = true -> enqueued cid L = got cid L ++ sc_cmds x) /\ (exists r, enqueued cid L = got cid L ++ r) /\
      blen (sc_cmds x) <= CMD_CAP /\ (sc_alive x = false -> sc_cmds x = [] /\ sc_egress x = [])
  end.
Lemma cmd_keep L x o x' : cmdI L (Some x) -> (sc_alive x = true -> sc_alive x' = true) -> (sc_alive x' = true -> sc_alive x = true) -> sc_cmds x' = sc_cmds x -> (sc_alive x = false -> sc_egress x' = sc_egress x) -> enqueued cid o = [] -> got cid o = [] -> cmdI (L ++ o) (Some x').
Proof using.
  intros (H1 & H2 & H3 & H4) El El' Ec Eg E1 E2. unfold cmdI. rewrite enqueued_app, got_app, E1, E2, !app_nil_r, Ec. repeat split; auto;
  assert (sc_alive x = false) by (destruct (sc_alive x); [rewrite El in *|]; auto); rewrite ?Eg by assumption; now apply H4.
Qed.
Lemma cmd_step L y o y' : cmdI L y -> cst D cid y o y' -> cmdI (L ++ o) y'.
Proof using.
  intros I C. destruct C as [a|x fl A|x m rest A E|x m rest ok A E|x c cs now m A E F|x c cs now A E F|x A E H|x now m A|x A|x c H|x H|x m rest H E T|x m rest p r H E T];
    try (apply (cmd_keep L x); auto; intros; congruence).
  - cbn in I. subst. cbn. repeat split; eauto; discriminate.
  - destruct I as (H1 & H2 & H3 & H4). unfold cmdI. rewrite enqueued_app, got_app. calc. specialize (H1 A). rewrite E in *. cbn [sc_set_cmds sc_set_egress sc_cmds sc_alive].
    split; [|split; [|split]].
    + intros _. rewrite H1, <- app_assoc. reflexivity.
    + exists cs. rewrite H1, <- app_assoc. reflexivity.
    + unfold blen in *. cbn [length] in H3. lia.
    + congruence.
  - destruct I as (H1 & H2 & H3 & H4). unfold cmdI. rewrite enqueued_app, got_app. calc. specialize (H1 A). rewrite E in *. cbn [sc_finish sc_cmds sc_alive sc_egress].
    repeat split; try discriminate; auto. exists cs. rewrite H1, <- app_assoc. reflexivity.
  - destruct I as (H1 & H2 & H3 & H4). unfold cmdI. rewrite enqueued_app, got_app. calc. cbn [sc_finish sc_cmds sc_alive sc_egress]. repeat split; auto; discriminate.
  - destruct (incoming_cases now m x) as (r & x' & -> & Ea & Eg & Ec & El & Eh & _). cbn [fst snd]. apply (cmd_keep L x); auto; congruence.
  - destruct (try_cases c x) as (r & x' & -> & Ea & Eg & _ & El & Eh & _ & _ & [(-> & K & Ec)|[(-> & K & Lt & Ec)|(-> & K & Lt & Ec)]]); cbn [fst snd].
    + apply (cmd_keep L x); auto; congruence.
    + destruct I as (H1 & H2 & H3 & H4). unfold cmdI. rewrite enqueued_app, got_app. calc. specialize (H1 K). rewrite Ec. split; [|split; [|split]].
      * intros _. rewrite H1, <- app_assoc. reflexivity.
      * exists (sc_cmds x ++ [c]). rewrite H1, <- app_assoc. reflexivity.
      * rewrite blen_app. unfold blen at 2. cbn [length]. lia.
      * congruence.
    + apply (cmd_keep L x); auto; congruence.
Qed.

(** ** Control frames *)
Definition made (m : ps_msg) : Prop := exists now c, cmd_frame now c = Some m.
Lemma cmd_frame_topic now c m : cmd_frame now c = Some m -> ps_topic m = ctl_topic c.
Proof using.
  destruct c; cbn; unfold ps_new_sub, ps_new_unsub, ps_new; match goal with |- context [if ?b then _ else _] => destruct b end; try discriminate; intros [= <-]; reflexivity.
Qed.
Lemma cmd_frame_none now c : cmd_frame now c = None -> 2 ^ 16 <= blen (ctl_topic c).
Proof using.
  destruct c; cbn [cmd_frame ctl_topic]; unfold ps_new_sub, ps_new_unsub, ps_new; match goal with |- context [?a <? ?b] => destruct (N.ltb_spec a b) end; try discriminate; auto.
Qed.
Definition wireI (L : list uout) (y : option sconn) : Prop :=
  match y with
  | None => L = []
  | Some x => Forall made (wired cid L) /\ Forall made (sc_egress x) /\
      (sc_alive x = true -> Permutation (map ps_topic (wired cid L ++ sc_egress x)) (map ctl_topic (got cid L)) /\
         (~ In (UBusy cid) L -> map ps_topic (wired cid L ++ sc_egress x) = map ctl_topic (got cid L))) /\
      (exists w, Permutation (map ps_topic (wired cid L) ++ w) (map ctl_topic (got cid L)) /\
         (~ In (UBusy cid) L -> map ps_topic (wired cid L) ++ w = map ctl_topic (got cid L)))
  end.
Lemma wire_keep L x o x' : wireI L (Some x) -> (sc_alive x' = true -> sc_alive x = true) -> sc_egress x' = sc_egress x -> wired cid o = [] -> got cid o = [] -> wireI (L ++ o) (Some x').
Proof using.
  intros (H1 & H2 & H3 & w & H4 & H5) El Eg E1 E2. unfold wireI. rewrite wired_app, got_app, E1, E2, !app_nil_r, Eg.
  assert (K : ~ In (UBusy cid) (L ++ o) -> ~ In (UBusy cid) L) by (intros Hn Hi; apply Hn, in_or_app; auto).
  split; [exact H1|]. split; [exact H2|]. split; [intros A; destruct (H3 (El A)); split; auto|]. exists w. auto.
Qed.
Lemma wire_alive L x : Forall made (wired cid L) -> Forall made (sc_egress x) ->
  (Permutation (map ps_topic (wired cid L ++ sc_egress x)) (map ctl_topic (got cid L)) /\
         (~ In (UBusy cid) L -> map ps_topic (wired cid L ++ sc_egress x) = map ctl_topic (got cid L))) -> wireI L (Some x).
Proof using.
  intros H1 H2 H3. split; [exact H1|]. split; [exact H2|]. split; [auto|]. exists (map ps_topic (sc_egress x)). rewrite <- map_app. exact H3.
Qed.
Lemma wire_step L y o y' : wireI L y -> cst D cid y o y' -> wireI (L ++ o) y'.
Proof using.
  intros I C. destruct C as [a|x fl A|x m rest A E|x m rest ok A E|x c cs now m A E F|x c cs now A E F|x A E H|x now m A|x A|x c H|x H|x m rest H E T|x m rest p r H E T];
    try (apply (wire_keep L x); auto; intros; congruence).
  - cbn in I. subst. apply wire_alive; try constructor; reflexivity.
  - destruct I as (H1 & H2 & H3 & _). destruct (H3 A) as [P _]. apply wire_alive; rewrite ?wired_app, ?got_app; calc; [exact H1| |].
    + cbn. rewrite E in H2. inversion H2; subst. apply Forall_app. split; [assumption|constructor; [assumption|constructor]].
    + split; [|intros Hn; exfalso; apply Hn, in_or_app; right; now left]. cbn [sc_set_egress sc_egress]. rewrite <- P, E. apply Permutation_map, Permutation_app_head.
      rewrite Permutation_app_comm. reflexivity.
  - destruct I as (H1 & H2 & H3 & _). destruct (H3 A) as [P Q]. rewrite E in *. inversion H2; subst.
    apply wire_alive; rewrite ?wired_app, ?got_app; calc; [apply Forall_app; auto|assumption|]. cbn [sc_set_egress sc_egress]. rewrite <- !app_assoc. cbn [app]. split; [exact P|].
    intros Hn. apply Q. intros Hi. apply Hn, in_or_app; auto.
  - destruct I as (H1 & H2 & H3 & _). destruct (H3 A) as [P Q].
    apply wire_alive; rewrite ?wired_app, ?got_app; calc; [exact H1|cbn; apply Forall_app; split; [exact H2|constructor; [exists now, c; exact F|constructor]]|].
    cbn [sc_set_cmds sc_set_egress sc_egress]. rewrite app_assoc, !map_app. cbn [map]. rewrite (cmd_frame_topic _ _ _ F). rewrite map_app in P, Q. split.
    + apply Permutation_app_tail. exact P.
    + intros Hn. rewrite Q; [reflexivity|]. intros Hi. apply Hn, in_or_app; auto.
  - destruct I as (H1 & H2 & H3 & w & H4 & H5). unfold wireI. rewrite wired_app, got_app. calc. split; [exact H1|]. split; [constructor|]. split; [discriminate|].
    exists (w ++ [ctl_topic c]). rewrite map_app, app_assoc. cbn [map]. split; [now apply Permutation_app_tail|]. intros Hn. rewrite H5; [reflexivity|]. intros Hi; apply Hn, in_or_app; auto.
  - destruct I as (H1 & H2 & H3 & w & H4 & H5). unfold wireI. rewrite wired_app, got_app. calc. split; [exact H1|]. split; [constructor|]. split; [discriminate|].
    exists w. split; [exact H4|]. intros Hn. apply H5. intros Hi; apply Hn, in_or_app; auto.
  - destruct (incoming_cases now m x) as (r & x' & -> & Ea & Eg & Ec & El & Eh & _). cbn [fst snd]. apply (wire_keep L x); auto; congruence.
  - destruct (try_cases c x) as (r & x' & -> & Ea & Eg & Ei & El & Eh & _). cbn [fst snd]. apply (wire_keep L x); auto; congruence.
Qed.

(** ** Messages *)
Definition inI (L : list uout) (y : option sconn) : Prop :=
  match y with
  | None => L = []
  | Some x => (sc_held x = true -> map tmsg_of (accepted cid L) = taken cid L ++ sc_in x) /\
      (sc_held x = false -> sc_in x = [] /\ exists l, In (UClosed cid l) L /\ map tmsg_of (accepted cid L) = taken cid L ++ l) /\
      blen (sc_in x) <= IN_CAP
  end.
Lemma in_keep L x o x' : inI L (Some x) -> sc_held x' = sc_held x -> sc_in x' = sc_in x -> accepted cid o = [] -> taken cid o = [] -> inI (L ++ o) (Some x').
Proof using.
  intros (H1 & H2 & H3) Eh Ei E1 E2. unfold inI. rewrite accepted_app, taken_app, E1, E2, !app_nil_r, Eh, Ei. split; [exact H1|]. split; [|exact H3].
  intros F. destruct (H2 F) as (A & l & B & C). split; [exact A|]. exists l. split; [apply in_or_app; auto|exact C].
Qed.
Lemma in_step L y o y' : inI L y -> cst D cid y o y' -> inI (L ++ o) y'.
Proof using.
  intros I C. destruct C as [a|x fl A|x m rest A E|x m rest ok A E|x c cs now m A E F|x c cs now A E F|x A E H|x now m A|x A|x c H|x H|x m rest H E T|x m rest p r H E T];
    try (apply (in_keep L x); auto; intros; congruence).
  - cbn in I. subst. cbn. repeat split; auto; discriminate.
  - destruct (incoming_cases now m x) as (r & x' & -> & Ea & Eg & Ec & El & Eh & _ & _ & [(-> & K & Ei)|[(-> & K & Lt & Ei)|(-> & K & Lt & Ei)]]); cbn [fst snd].
    + apply (in_keep L x); auto.
    + destruct I as (H1 & H2 & H3). unfold inI. rewrite accepted_app, taken_app. calc. rewrite Eh, Ei, map_app, (H1 K), <- app_assoc. split; [reflexivity|]. split; [congruence|].
      rewrite blen_app. unfold blen at 2. cbn [length]. unfold IN_CAP in *. lia.
    + apply (in_keep L x); auto.
  - destruct (try_cases c x) as (r & x' & -> & Ea & Eg & Ei & El & Eh & _). cbn [fst snd]. apply (in_keep L x); auto.
  - destruct I as (H1 & H2 & H3). unfold inI. rewrite accepted_app, taken_app. calc. cbn [sc_release sc_held sc_in]. split; [discriminate|]. split; [|unfold blen, IN_CAP; cbn; lia].
    intros _. split; [reflexivity|]. exists (sc_in x). split; [apply in_or_app; right; now left|auto].
  - destruct I as (H1 & H2 & H3). unfold inI. rewrite accepted_app, taken_app. calc. cbn [sc_set_in sc_held sc_in]. rewrite (H1 H), E, <- app_assoc. split; [reflexivity|]. split; [congruence|].
    rewrite E in H3. unfold blen in *. cbn [length] in H3. lia.
  - destruct I as (H1 & H2 & H3). unfold inI. rewrite accepted_app, taken_app. calc. cbn [sc_set_in sc_held sc_in]. rewrite (H1 H), E, <- app_assoc. split; [reflexivity|]. split; [congruence|].
    rewrite E in H3. unfold blen in *. cbn [length] in H3. lia.
Qed.

(** ** Statistics *)
Definition lat_step (a : avg) (d : N) : avg := match avg_update a d with Some a' => a' | None => a end.
Definition statI (L : list uout) (y : option sconn) : Prop :=
  match y with None => L = [] | Some x => sc_rx x = sum_len (map ps_payload (received_on cid L)) /\ sc_lat x = fold_left lat_step (latencies cid L) avg0 end.
Lemma stat_keep L x o x' : statI L (Some x) -> sc_rx x' = sc_rx x -> sc_lat x' = sc_lat x -> received_on cid o = [] -> latencies cid o = [] -> statI (L ++ o) (Some x').
Proof using. intros (H1 & H2) Eh Ei E1 E2. unfold statI. rewrite received_on_app, latencies_app, E1, E2, !app_nil_r, Eh, Ei. auto. Qed.
Lemma sum_len_app a b : sum_len (a ++ b) = sum_len a + sum_len b.
Proof using. unfold sum_len. induction a as [|x a IH]; cbn [app fold_right]; [reflexivity|]. rewrite IH. lia. Qed.
Lemma stat_step L y o y' : statI L y -> cst D cid y o y' -> statI (L ++ o) y'.
Proof using.
  intros I C. destruct C as [a|x fl A|x m rest A E|x m rest ok A E|x c cs now m A E F|x c cs now A E F|x A E H|x now m A|x A|x c H|x H|x m rest H E T|x m rest p r H E T];
    try (apply (stat_keep L x); auto; intros; congruence).
  - cbn in I. subst. cbn. auto.
  - destruct (incoming_cases now m x) as (r & x' & -> & Ea & Eg & Ec & El & Eh & Er & Et & _). cbn [fst snd]. destruct I as [I1 I2]. unfold statI. rewrite received_on_app, latencies_app. calc.
    rewrite map_app, sum_len_app, fold_left_app, <- I1, <- I2, Er, Et. cbn. split; [lia|reflexivity].
  - destruct (try_cases c x) as (r & x' & -> & Ea & Eg & Ei & El & Eh & Er & Et & _). cbn [fst snd]. apply (stat_keep L x); auto.
Qed.

(** ** What every entry tells about those before *)
Definition entE (b : list uout) (x : uout) : Prop :=
  match x with
  | URecv c _ _ TFull => blen (accepted cid b) = blen (taken cid b) + IN_CAP
  | URecv c _ _ TClosed => closedL cid b
  | UTry c _ r => ~ closedL cid b /\ match r with TFull => blen (enqueued cid b) = blen (got cid b) + CMD_CAP | TClosed => endedL cid b | TSent => True end
  | UDeliver c m a p _ => try_decompress D (tm_ctype m) (tm_payload m) = Some p /\ exists b', b = UOpen cid a :: b'
  | UUndecodable c m => try_decompress D (tm_ctype m) (tm_payload m) = None
  | UCrash c => exists b' k, b = b' ++ [UGot cid k] /\ 2 ^ 16 <= blen (ctl_topic k)
  | UEnd c => closedL cid b
  | UClosed c _ => ~ closedL cid b
  | _ => True
  end.
Definition entI (L : list uout) (y : option sconn) : Prop := lifeI L y /\ cmdI L y /\ inI L y /\ every entE L.
Lemma ent_step L y o y' : entI L y -> cst D cid y o y' -> entI (L ++ o) y'.
Proof using.
  intros (I1 & I2 & I3 & I4) C. split; [eapply life_step; eauto|]. split; [eapply cmd_step; eauto|]. split; [eapply in_step; eauto|].
  apply every_app; [exact I4|]. intros b z a E0.
  assert (one : forall w, o = [w] -> entE L w -> entE (L ++ b) z).
  { intros w Ew Hw. rewrite Ew in E0. destruct b as [|? b]; [|destruct b; discriminate]. cbn in E0. injection E0 as -> _. now rewrite app_nil_r. }
  destruct C as [k|x fl A|x m rest A E|x m rest ok A E|x c cs now m A E F|x c cs now A E F|x A E H|x now m A|x A|x c H|x H|x m rest H E T|x m rest p r H E T];
    try (eapply one; [reflexivity|exact Logic.I]).
  - destruct b; discriminate.
  - destruct b as [|? [|? b]]; cbn in E0; [injection E0 as <- _; exact Logic.I| |destruct b; discriminate].
    injection E0 as <- <- _. exists L, c. split; [reflexivity|]. eapply cmd_frame_none; eauto.
  - eapply one; [reflexivity|]. cbn. apply I1. exact H.
  - destruct (incoming_cases now m x) as (r & x' & EE & Ea & Eg & Ec & El & Eh & _ & _ & K). rewrite EE in *. cbn [fst snd] in *. eapply one; [reflexivity|].
    destruct K as [(-> & K & Ei)|[(-> & K & Lt & Ei)|(-> & K & Lt & Ei)]]; cbn; auto.
    + apply I1. exact K.
    + destruct I3 as (H1 & _ & H3). specialize (H1 K). apply (f_equal (@length _)) in H1. rewrite map_length, app_length in H1. unfold blen in *. lia.
  - destruct (try_cases c x) as (r & x' & EE & Ea & Eg & Ei & El & Eh & _ & _ & K). rewrite EE in *. cbn [fst snd] in *. eapply one; [reflexivity|].
    split; [intros Hc; apply I1 in Hc; congruence|].
    destruct K as [(-> & K & Ec)|[(-> & K & Lt & Ec)|(-> & K & Lt & Ec)]]; cbn; auto.
    + apply I1. exact K.
    + destruct I2 as (H1 & _ & H3 & _). specialize (H1 K). apply (f_equal (@length _)) in H1. rewrite app_length in H1. unfold blen in *. lia.
  - eapply one; [reflexivity|]. cbn. intros Hc. apply I1 in Hc. congruence.
  - eapply one; [reflexivity|]. exact T.
  - eapply one; [reflexivity|]. cbn. split; [exact T|]. destruct I1 as ((L' & -> & _) & _). eauto.
Qed.
End P.

(** ** Together *)
Section R.
Variables (token : option bytes) (ingress initial : N) (D : decompressors) (cid : N).
Notation run := (sb_run token ingress initial D).
Record connI (L : list uout) (y : option sconn) : Prop := mkCI {
  ci_life : lifeI cid L y; ci_cmd : cmdI cid L y; ci_wire : wireI cid L y; ci_in : inI cid L y; ci_stat : statI cid L y; ci_ent : every (entE D cid) L }.
Lemma run_connI evs s L : run sb_init evs = (s, L) -> connI (on cid L) (mget cid (sb_conns s)).
Proof using.
  apply (conn_inv token ingress initial D cid connI).
  - constructor; try reflexivity. apply every_nil.
  - intros L0 y o y' [] C. assert (E : entI D cid (L0 ++ o) y') by (eapply ent_step; eauto; repeat split; assumption). destruct E as (? & ? & ? & ?).
    constructor; auto; [eapply wire_step; eauto|eapply stat_step; eauto].
Qed.
End R.
