(** Connections (Model/Net.v): what is read at one end is what was written at the other. *)
From Coq Require Import ZArith.
From Verif Require Import Model.Base Model.Framed Model.Net Spec.Stream Proofs.BaseP Proofs.FramedP2.
Local Open Scope nat_scope.

Lemma io_data_received i : io_data i = received i. Proof. reflexivity. Qed.
Lemma io_data_app a b : io_data (a ++ b) = io_data a ++ io_data b.
Proof. unfold io_data. rewrite map_app, concat_app. reflexivity. Qed.
Lemma prefixb_ok a : forall b, prefixb a b = true <-> exists r, b = a ++ r.
Proof.
  induction a as [|x a IH]; intros b; cbn [prefixb].
  - split; [exists b; reflexivity|reflexivity].
  - destruct b as [|y b]; [split; [discriminate|intros (r & H); discriminate]|].
    rewrite andb_true_iff, IH. split.
    + intros [H (r & ->)]. exists r. destruct (byte_eqb_spec x y); [subst; reflexivity|discriminate].
    + intros (r & H). cbn in H. injection H as -> ->. split; [|exists r; reflexivity]. destruct (byte_eqb_spec x x); congruence.
Qed.

Lemma poll_suffix {S M E} (decode : S -> bytes -> dres S M E) io_err input : forall f r f' rest,
  framed_poll decode io_err f input = (r, f', rest) -> exists used, input = used ++ rest.
Proof.
  induction input as [|i input IH]; intros f r f' rest; rewrite framed_poll_unfold; destruct (framed_front decode io_err f) as [[x|] g].
  - intros H; inversion H; subst. exists []; reflexivity.
  - intros H; inversion H; subst. exists []; reflexivity.
  - intros H; inversion H; subst. exists []; reflexivity.
  - destruct i as [[|x c]| |].
    + destruct (fr_eof g); [intros H; inversion H; subst; exists [IoData []]; reflexivity|].
      intros H. apply IH in H. destruct H as (u & ->). exists (IoData [] :: u). reflexivity.
    + intros H. apply IH in H. destruct H as (u & ->). exists (IoData (x :: c) :: u). reflexivity.
    + intros H; inversion H; subst. exists [IoPending]; reflexivity.
    + intros H; inversion H; subst. exists [IoErr]; reflexivity.
Qed.

(** What is read from the pipe is exactly the data of the reads that were used. *)
Lemma read_used used rest p : pipe_offers (used ++ rest) p = true ->
  firstn (length (io_data (used ++ rest)) - length (io_data rest)) (pp_todo p) = io_data used /\
  exists more, pp_todo p = io_data used ++ more /\
    pipe_read (used ++ rest) rest p = mkPipe (pp_done p ++ io_data used) more.
Proof.
  unfold pipe_offers, pipe_read. rewrite prefixb_ok. intros (r & E). rewrite io_data_app in *. rewrite app_length. 
  replace (length (io_data used) + length (io_data rest) - length (io_data rest)) with (length (io_data used)) by lia.
  rewrite E, <- !app_assoc, firstn_app, Nat.sub_diag, firstn_all. cbn [firstn]. rewrite app_nil_r. split; [reflexivity|].
  exists (io_data rest ++ r). split; [reflexivity|]. f_equal. rewrite skipn_app, skipn_all, Nat.sub_diag. reflexivity.
Qed.

Section Dir.
Context {S M E : Type}.
Variables (decode : S -> bytes -> dres S M E) (io_err : E) (encode : M -> bytes) (start : S).
Variables (ok : S -> Prop) (held : S -> bytes).
Hypothesis CONS : conserving decode ok held encode.
Hypothesis OK0 : ok start.
Hypothesis HELD0 : held start = [].
Definition encs (ms : list M) : bytes := concat (map encode ms).
Variable wf : M -> Prop.
Hypothesis DWF : forall s b m s' r, ok s -> decode s b = DMsg m s' r -> wf m.

Definition dir (a b : endp S M) : Prop :=
  pp_done (en_in b) ++ pp_todo (en_in b) = en_greet a ++ encs (en_sent a) /\
  ok (fr_codec (en_fr b)) /\
  pp_done (en_in b) = en_hs b ++ encs (en_items b) ++ held (fr_codec (en_fr b)) ++ fr_buf (en_fr b) /\
  Forall wf (en_items b).

Lemma front_wf f m f' : ok (fr_codec f) -> framed_front decode io_err f = (Some (PItem m), f') -> wf m.
Proof using DWF.
  intros O. unfold framed_front. destruct (fr_errored f); [discriminate|]. destruct (fr_readable f); [|discriminate].
  destruct (fr_eof f); destruct (decode (fr_codec f) (fr_buf f)) as [s b|m' s b|e s b|] eqn:Dc; try discriminate; try (destruct b; discriminate);
    intros H; inversion H; subst; eapply DWF; eauto.
Qed.
Lemma poll_wf input : forall f m f' rest, ok (fr_codec f) -> framed_poll decode io_err f input = (PItem m, f', rest) -> wf m.
Proof using CONS DWF.
  induction input as [|i input IH]; intros f m f' rest O; rewrite framed_poll_unfold; pose proof (front_conserve decode io_err ok held encode CONS f O) as FC;
    destruct (framed_front decode io_err f) as [[x|] g] eqn:Fr; try (intros H; inversion H; subst; eapply front_wf; eauto; fail).
  destruct FC as [O' _]. destruct i as [[|x c]| |]; try discriminate.
  - destruct (fr_eof g); [discriminate|]. intros H. eapply IH in H; [exact H|exact O'].
  - intros H. eapply IH in H; [exact H|exact O'].
Qed.

Lemma encs_app a b : encs (a ++ b) = encs a ++ encs b.
Proof using. unfold encs. rewrite map_app, concat_app. reflexivity. Qed.

Lemma dir_poll a b input r b' : dir a b -> pipe_offers input (en_in b) = true -> end_poll decode io_err input b = (r, b') ->
  r <> PPanic /\ dir a b' /\ en_items b' = en_items b ++ match r with PItem m => [m] | _ => [] end /\
  en_hs b' = en_hs b /\ en_greet b' = en_greet b /\ en_sent b' = en_sent b /\ en_on b' = en_on b.
Proof using CONS DWF.
  intros (D1 & D2 & D3 & D4) Of. unfold end_poll. destruct (framed_poll decode io_err (en_fr b) input) as [[r0 f] rest] eqn:P.
  intros H; inversion H; subst r0 b'; clear H. destruct (poll_suffix _ _ _ _ _ _ _ P) as (used & ->).
  pose proof (poll_conserve decode io_err ok held encode CONS (used ++ rest) (en_fr b) D2) as C. rewrite P in C. destruct C as (C1 & C2 & C3).
  destruct (read_used _ _ _ Of) as (_ & more & T & R). rewrite R.
  split; [exact C1|]. split; [|repeat split]. split; cbn [en_in en_greet en_sent en_fr en_hs en_items pp_done pp_todo].
  - rewrite <- D1, T, <- app_assoc. reflexivity.
  - split; [exact C2|]. split; [|apply Forall_app; split; [exact D4|]; destruct r; constructor; [eapply poll_wf; [exact D2|exact P]|constructor]]. rewrite D3, <- !app_assoc.
    assert (C4 : held (fr_codec (en_fr b)) ++ fr_buf (en_fr b) ++ received used = item_bytes encode r ++ held (fr_codec f) ++ fr_buf f).
    { rewrite <- !io_data_received, io_data_app, !app_assoc in C3. apply app_inv_tail in C3. rewrite <- !app_assoc in C3. exact C3. }
    rewrite io_data_received, C4, encs_app, <- !app_assoc. do 2 f_equal. f_equal. destruct r; unfold encs; cbn; rewrite ?app_nil_r; reflexivity.
Qed.

Lemma dir_hs a b used rest : dir a b -> pipe_offers (used ++ rest) (en_in b) = true -> en_items b = [] -> en_fr b = framed_new start ->
  dir a (end_hs (used ++ rest) rest b) /\ en_hs (end_hs (used ++ rest) rest b) = en_hs b ++ io_data used.
Proof using HELD0 OK0.
  intros (D1 & D2 & D3 & D4) Of I F. unfold end_hs, dir. destruct (read_used _ _ _ Of) as (-> & more & T & ->).
  cbn [en_in en_greet en_sent en_fr en_hs en_items pp_done pp_todo]. split; [|reflexivity]. split; [|split; [exact D2|split; [|exact D4]]].
  - rewrite <- D1, T, <- app_assoc. reflexivity.
  - rewrite D3, I, F. cbn [encs map concat framed_new fr_codec fr_buf app]. rewrite HELD0, <- !app_assoc. cbn [app]. rewrite !app_nil_r. reflexivity.
Qed.

Lemma dir_send a b ms : dir a b -> dir (end_send ms a) (end_get (encs ms) b).
Proof using.
  intros (D1 & D2 & D3 & D4). split; [|split; [exact D2|split; [exact D3|exact D4]]].
  cbn [en_in end_get end_send pipe_write pp_done pp_todo en_greet en_sent]. rewrite encs_app, !app_assoc, D1, <- !app_assoc. reflexivity.
Qed.
Lemma dir_greet a b w : dir a b -> en_sent a = [] -> dir (end_greet w a) (end_get w b).
Proof using.
  intros (D1 & D2 & D3 & D4) Se. split; [|split; [exact D2|split; [exact D3|exact D4]]].
  cbn [en_in end_get end_greet pipe_write pp_done pp_todo en_greet en_sent]. rewrite Se in *. cbn [encs map concat] in *. rewrite app_nil_r in *. rewrite !app_assoc, D1. reflexivity.
Qed.
(** Only the writer's outgoing ghosts and the reader's incoming side matter. *)
Lemma dir_eq a b a' b' : dir a b -> en_greet a' = en_greet a -> en_sent a' = en_sent a ->
  en_in b' = en_in b -> en_fr b' = en_fr b -> en_hs b' = en_hs b -> en_items b' = en_items b -> dir a' b'.
Proof using. unfold dir. intros (D1 & D2 & D3 & D4) -> -> -> -> -> ->. auto. Qed.
Lemma dir_new : dir (end_new start) (end_new start).
Proof using OK0 HELD0. split; [reflexivity|]. split; [exact OK0|]. cbn. rewrite HELD0. split; [reflexivity|constructor]. Qed.

(** Unique decoding. *)
Hypothesis DECENC : forall m r, wf m -> decode start (encode m ++ r) = DMsg m start r.
Lemma items_prefix : forall is ms x y, Forall wf is -> Forall wf ms -> encs is ++ x = encs ms ++ y -> (forall m, encode m <> []) -> y = [] -> prefix_of is ms.
Proof using DECENC.
  induction is as [|i is IH]; intros ms x y Wi Wm Eq Ne Y; [exists ms; reflexivity|]. subst y.
  destruct ms as [|m ms].
  - exfalso. cbn in Eq. destruct (encode i) eqn:Ei; [apply (Ne i Ei)|discriminate].
  - inversion Wi; subst. inversion Wm; subst. cbn [encs map concat] in Eq. rewrite <- !app_assoc in Eq.
    pose proof (DECENC i (encs is ++ x) H1) as A. pose proof (DECENC m (encs ms ++ []) H3) as B.
    change (encode i ++ encs is ++ x = encode m ++ encs ms ++ []) in Eq. rewrite Eq, B in A. inversion A; subst.
    destruct (IH ms x [] H2 H4) as [r ->]; [congruence|exact Ne|reflexivity|]. exists r. reflexivity.
Qed.

Variable head : byte.
Hypothesis HEAD : forall m, exists t, encode m = head :: t.

(** Items whose encodings start a stream of other bytes: there are none. *)
Lemma foreign_items ms x y (w : bytes) : encs ms ++ x = w ++ y -> (exists c t, w = c :: t /\ c <> head) -> ms = [].
Proof using HEAD.
  intros Q (c & t & -> & Hc). destruct ms as [|m ms]; [reflexivity|]. exfalso. cbn in Q. destruct (HEAD m) as [u Hu]. rewrite Hu in Q. cbn in Q. congruence.
Qed.
Lemma empty_items ms x : encs ms ++ x = [] -> ms = [].
Proof using HEAD. destruct ms as [|m ms]; [reflexivity|]. destruct (HEAD m) as [u Hu]. cbn. rewrite Hu. discriminate. Qed.
End Dir.
