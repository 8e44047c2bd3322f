(** Every polynomial drawn by a key generator or an encryptor depends only on bytes of the generator that nothing drawn before has used. *)
From Coq Require Import Lia.
From Flocq Require Import IEEE754.BinarySingleNaN.
From Verif Require Import Word Ring RingOps Float64 Codec Sampler Gauss Gadget Rlwe Frlwe Ckks Fckks Encoder Msg Draw DrawSpec.
Local Open Scope nat_scope.

Lemma block_agree s s' p n : agree s s' p (p + n) -> block s' p n = block s p n.
Proof. intros H. unfold block. apply map_ext_in. intros j Hj. apply in_seq in Hj. apply H. lia. Qed.
Lemma agree_sub s s' a b a' b' : agree s s' a b -> a <= a' -> b' <= b -> agree s s' a' b'.
Proof. intros H Ha Hb j Hj. apply H. lia. Qed.

Lemma rand_below_reads n v mask fuel : forall s g x g', rand_below n fuel s v mask g = Ret (x, g') ->
  pos g + n <= pos g' /\ forall s', agree s s' (pos g) (pos g') -> rand_below n fuel s' v mask g = Ret (x, g').
Proof.
  induction fuel as [|f IH]; intros s g x g' H; [discriminate|]. cbn [rand_below] in *. unfold randInt, Clock in *. cbn [pos clock] in *.
  destruct (_ <? v)%Z eqn:E.
  - injection H as <- <-. cbn [pos]. split; [lia|]. intros s' HA. rewrite (block_agree s s' (pos g) n HA). rewrite E. reflexivity.
  - apply IH in H. cbn [pos] in H. destruct H as [H1 H2]. split; [lia|]. intros s' HA.
    rewrite (block_agree s s' (pos g) n) by (apply (agree_sub _ _ _ _ _ _ HA); lia). rewrite E. apply H2. apply (agree_sub _ _ _ _ _ _ HA); lia.
Qed.

(** ** The uniform sampler *)
Lemma draw_reads N mask q fuel : forall s b v b', draw fuel s N mask q b = Ret (v, b') ->
  pos (pgen b) <= pos (pgen b') /\ forall s', agree s s' (pos (pgen b)) (pos (pgen b')) -> draw fuel s' N mask q b = Ret (v, b').
Proof.
  induction fuel as [|f IH]; intros s b v b' H; [discriminate|]. cbn [draw] in *. unfold Clock in *.
  destruct (Nat.eqb (pptr b) N).
  - cbn [pbuf pptr pgen] in *. destruct (slice (block s (pos (pgen b)) N) 0 8) as [w| |] eqn:E1; cbn [bind] in *; try discriminate. destruct (_ <? q)%Z eqn:E.
    + injection H as <- <-. cbn [pos pgen]. split; [lia|]. intros s' HA. rewrite (block_agree _ _ _ _ HA), E1. cbn [bind]. rewrite E. reflexivity.
    + apply IH in H. cbn [pos pgen] in H. destruct H as [H1 H2]. split; [lia|]. intros s' HA.
      rewrite (block_agree s s' (pos (pgen b)) N) by (apply (agree_sub _ _ _ _ _ _ HA); lia). rewrite E1. cbn [bind]. rewrite E. apply H2. apply (agree_sub _ _ _ _ _ _ HA); lia.
  - destruct (slice (pbuf b) (pptr b) 8) as [w| |] eqn:E1; cbn [bind] in *; try discriminate. destruct (_ <? q)%Z eqn:E.
    + injection H as <- <-. cbn [pos pgen]. split; [lia|]. intros s' HA. reflexivity.
    + apply IH in H. cbn [pgen] in H. destruct H as [H1 H2]. split; [lia|]. intros s' HA. apply H2. exact HA.
Qed.
Lemma draws_reads N mask q fuel : forall n s b l b', draws fuel s N mask q n b = Ret (l, b') ->
  pos (pgen b) <= pos (pgen b') /\ forall s', agree s s' (pos (pgen b)) (pos (pgen b')) -> draws fuel s' N mask q n b = Ret (l, b').
Proof.
  induction n as [|n IH]; intros s b l b' H; cbn [draws] in *.
  - injection H as <- <-. split; [lia|]. reflexivity.
  - destruct (draw fuel s N mask q b) as [[v b1]| |] eqn:E1; cbn [bind] in *; try discriminate.
    destruct (draws fuel s N mask q n b1) as [[l2 b2]| |] eqn:E2; cbn [bind] in *; try discriminate. injection H as <- <-.
    apply draw_reads in E1. apply IH in E2. destruct E1 as [A1 B1], E2 as [A2 B2]. split; [lia|]. intros s' HA.
    rewrite B1 by (apply (agree_sub _ _ _ _ _ _ HA); lia). cbn [bind]. rewrite B2 by (apply (agree_sub _ _ _ _ _ _ HA); lia). reflexivity.
Qed.
Lemma draw_rows_reads N fuel ms : forall pol s b pol' b', draw_rows fuel s N ms pol b = Ret (pol', b') ->
  pos (pgen b) <= pos (pgen b') /\ forall s', agree s s' (pos (pgen b)) (pos (pgen b')) -> draw_rows fuel s' N ms pol b = Ret (pol', b').
Proof.
  induction ms as [|m ms IH]; intros pol s b pol' b' H; cbn [draw_rows] in *.
  - injection H as <- <-. split; [lia|]. reflexivity.
  - destruct pol as [|row pol]; [discriminate|]. destruct (Nat.ltb _ _); [discriminate|].
    destruct (draws fuel s N (mmask m) (mq m) N b) as [[l b1]| |] eqn:E1; cbn [bind] in *; try discriminate.
    destruct (draw_rows fuel s N ms pol b1) as [[p2 b2]| |] eqn:E2; cbn [bind] in *; try discriminate. injection H as <- <-.
    apply draws_reads in E1. apply IH in E2. destruct E1 as [A1 B1], E2 as [A2 B2]. split; [lia|]. intros s' HA.
    rewrite B1 by (apply (agree_sub _ _ _ _ _ _ HA); lia). cbn [bind]. rewrite B2 by (apply (agree_sub _ _ _ _ _ _ HA); lia). reflexivity.
Qed.
Lemma uniform_reads fuel s r level pol g pol' g' : Uniform_ReadLvl fuel s r level pol g = Ret (pol', g') ->
  pos g + rN r <= pos g' /\ forall s', agree s s' (pos g) (pos g') -> Uniform_ReadLvl fuel s' r level pol g = Ret (pol', g').
Proof.
  unfold Uniform_ReadLvl, Clock. destruct (Nat.ltb _ _); [|discriminate]. intros H.
  destruct (draw_rows fuel s (rN r) _ pol _) as [[p b]| |] eqn:E; cbn [bind] in H; try discriminate. injection H as <- <-.
  apply draw_rows_reads in E. cbn [pgen pos] in E. destruct E as [A B]. split; [exact A|]. intros s' HA.
  rewrite (block_agree s s' (pos g) (rN r)) by (apply (agree_sub _ _ _ _ _ _ HA); lia). rewrite B by (apply (agree_sub _ _ _ _ _ _ HA); lia). reflexivity.
Qed.

(** ** The ternary sampler *)
Lemma sparse_loop_reads N mont ms fuel is : forall s index rb ptr pol g i' p' g', sparse_loop fuel s N mont ms is index rb ptr pol g = Ret (i', p', g') ->
  pos g + 4 * length is <= pos g' /\ forall s', agree s s' (pos g) (pos g') -> sparse_loop fuel s' N mont ms is index rb ptr pol g = Ret (i', p', g').
Proof.
  induction is as [|i is IH]; intros s index rb ptr pol g i' p' g' H; cbn [sparse_loop] in *.
  - injection H as <- <- <-. cbn [length]. split; [lia|]. reflexivity.
  - destruct (rand_below 4 fuel s _ _ g) as [[j g1]| |] eqn:E1; cbn [bind] in *; try discriminate. apply rand_below_reads in E1. destruct E1 as [A1 B1].
    destruct (Codec.index rb 0) as [b| |]; cbn [bind] in *; try discriminate. destruct (Codec.index index (Z.to_nat j)) as [p| |] eqn:E2; cbn [bind] in *; try discriminate.
    destruct (if Nat.eqb (S ptr) 8 then _ else _) as [rb1 ptr1] eqn:E3. apply IH in H. destruct H as [A2 B2]. cbn [length]. split; [lia|]. intros s' HA.
    rewrite B1 by (apply (agree_sub _ _ _ _ _ _ HA); lia). cbn [bind]. rewrite E2. cbn [bind]. apply B2. apply (agree_sub _ _ _ _ _ _ HA); lia.
Qed.
Lemma sparse_reads fuel s r mont hw lvl pol g pol' hw' g' : sampleSparse fuel s r mont hw lvl pol g = Ret (pol', hw', g') ->
  pos g + (Nat.min hw (rN r) + 7) / 8 + 4 * Nat.min hw (rN r) <= pos g' /\ forall s', agree s s' (pos g) (pos g') -> sampleSparse fuel s' r mont hw lvl pol g = Ret (pol', hw', g').
Proof.
  unfold sampleSparse, Clock. destruct (_ && _); [|discriminate].
  replace (if Nat.ltb (rN r) hw then rN r else hw) with (Nat.min hw (rN r)) by (destruct (Nat.ltb_spec (rN r) hw); lia).
  generalize (Nat.min hw (rN r)). intros h H. cbv zeta in *.
  destruct (sparse_loop fuel s _ _ _ _ _ _ _ _ _) as [[[i1 p1] g1]| |] eqn:E; cbn [bind] in H; try discriminate. injection H as <- <- <-.
  apply sparse_loop_reads in E. rewrite seq_length in E. cbn [pos] in E. destruct E as [A B]. split; [exact A|]. intros s' HA.
  rewrite (block_agree s s' (pos g)) by (apply (agree_sub _ _ _ _ _ _ HA); lia). rewrite B by (apply (agree_sub _ _ _ _ _ _ HA); lia). reflexivity.
Qed.

(** ** The Gaussian sampler *)
Notation gpos st := (pos (ggen st)).
Lemma ready_reads s st : gpos st <= gpos (ready s st) /\ forall s', agree s s' (gpos st) (gpos (ready s st)) -> ready s' st = ready s st.
Proof.
  unfold ready, Clock. destruct (Nat.eqb _ _); cbn [ggen pos]; [|split; [lia|reflexivity]]. split; [lia|]. intros s' HA. rewrite (block_agree _ _ _ _ HA). reflexivity.
Qed.
Lemma advance_pos st : gpos (advance st) = gpos st.
Proof. reflexivity. Qed.
Ltac again HA := apply (agree_sub _ _ _ _ _ _ HA); lia.
Lemma tail_reads log fuel : forall s st x st', tail fuel log s st = Ret (x, st') ->
  gpos st <= gpos st' /\ forall s', agree s s' (gpos st) (gpos st') -> tail fuel log s' st = Ret (x, st').
Proof.
  induction fuel as [|f IH]; intros s st x st' H; [discriminate|]. cbn [tail] in *.
  pose proof (ready_reads s st) as [R1 R2]. destruct (slice (gbuf (ready s st)) _ 8) as [b| |] eqn:E1; cbn [bind] in *; try discriminate.
  set (st1 := advance (ready s st)) in *. pose proof (ready_reads s st1) as [R3 R4]. assert (P1 : gpos st1 = gpos (ready s st)) by reflexivity.
  destruct (slice (gbuf (ready s st1)) _ 8) as [b2| |] eqn:E2; cbn [bind] in *; try discriminate.
  set (st2 := advance (ready s st1)) in *. assert (P2 : gpos st2 = gpos (ready s st1)) by reflexivity.
  destruct (Bleb _ _) eqn:E3.
  - injection H as <- <-. split; [lia|]. intros s' HA. rewrite R2 by again HA. rewrite E1. cbn [bind]. fold st1. rewrite R4 by again HA. rewrite E2. cbn [bind]. rewrite E3. reflexivity.
  - apply IH in H. destruct H as [A B]. split; [lia|]. intros s' HA. rewrite R2 by again HA. rewrite E1. cbn [bind]. fold st1. rewrite R4 by again HA. rewrite E2. cbn [bind]. rewrite E3.
    apply B. again HA.
Qed.
Lemma norm_reads log exp fuel : forall s st x st', normFloat64 fuel log exp s st = Ret (x, st') ->
  gpos st <= gpos st' /\ forall s', agree s s' (gpos st) (gpos st') -> normFloat64 fuel log exp s' st = Ret (x, st').
Proof.
  induction fuel as [|f IH]; intros s st x st' H; [discriminate|]. cbn [normFloat64] in *.
  pose proof (ready_reads s st) as [R1 R2]. destruct (slice (gbuf (ready s st)) _ 4) as [b| |] eqn:E1; cbn [bind] in *; try discriminate.
  set (st1 := advance (ready s st)) in *. assert (P1 : gpos st1 = gpos (ready s st)) by reflexivity.
  set (i := Z.to_nat _) in *. destruct (wn_at i) as [w| |] eqn:E2; cbn [bind] in *; try discriminate. destruct (index kn i) as [k| |] eqn:E3; cbn [bind] in *; try discriminate.
  destruct (_ <? k)%Z eqn:E4.
  { injection H as <- <-. split; [lia|]. intros s' HA. rewrite R2 by again HA. rewrite E1. cbn [bind]. fold i. rewrite E2. cbn [bind]. rewrite E3. cbn [bind]. rewrite E4. reflexivity. }
  destruct (Nat.eqb i 0) eqn:E5.
  { destruct (tail (S f) log s st1) as [[y st2]| |] eqn:E6; cbn [bind] in *; try discriminate. injection H as <- <-. apply tail_reads in E6. destruct E6 as [A B].
    split; [lia|]. intros s' HA. rewrite R2 by again HA. rewrite E1. cbn [bind]. fold i. rewrite E2. cbn [bind]. rewrite E3. cbn [bind]. rewrite E4, E5. fold st1. rewrite B by again HA. reflexivity. }
  pose proof (ready_reads s st1) as [R3 R4]. destruct (slice (gbuf (ready s st1)) _ 8) as [b2| |] eqn:E6; cbn [bind] in *; try discriminate.
  destruct (fn_at i) as [f1| |] eqn:E7; cbn [bind] in *; try discriminate. destruct (fn_at (i - 1)) as [f0| |] eqn:E8; cbn [bind] in *; try discriminate.
  set (st2 := advance (ready s st1)) in *. assert (P2 : gpos st2 = gpos (ready s st1)) by reflexivity.
  destruct (Bltb _ _) eqn:E9.
  - injection H as <- <-. split; [lia|]. intros s' HA. rewrite R2 by again HA. rewrite E1. cbn [bind]. fold i. rewrite E2. cbn [bind]. rewrite E3. cbn [bind]. rewrite E4, E5. fold st1.
    rewrite R4 by again HA. rewrite E6. cbn [bind]. rewrite E7. cbn [bind]. rewrite E8. cbn [bind]. rewrite E9. reflexivity.
  - apply IH in H. destruct H as [A B]. split; [lia|]. intros s' HA. rewrite R2 by again HA. rewrite E1. cbn [bind]. fold i. rewrite E2. cbn [bind]. rewrite E3. cbn [bind]. rewrite E4, E5. fold st1.
    rewrite R4 by again HA. rewrite E6. cbn [bind]. rewrite E7. cbn [bind]. rewrite E8. cbn [bind]. rewrite E9. apply B. again HA.
Qed.
Lemma sample_reads log exp other sigma bound fuel : forall s st x st', sample fuel log exp other s sigma bound st = Ret (x, st') ->
  gpos st <= gpos st' /\ forall s', agree s s' (gpos st) (gpos st') -> sample fuel log exp other s' sigma bound st = Ret (x, st').
Proof.
  induction fuel as [|f IH]; intros s st x st' H; [discriminate|]. cbn [sample] in *.
  destruct (normFloat64 (S f) log exp s st) as [[[y sg] st1]| |] eqn:E1; cbn [bind] in *; try discriminate. apply norm_reads in E1. destruct E1 as [A1 B1].
  destruct (_ <=? w64 bound)%Z eqn:E2.
  - injection H as <- <-. split; [lia|]. intros s' HA. rewrite B1 by again HA. cbn [bind]. rewrite E2. reflexivity.
  - apply IH in H. destruct H as [A B]. split; [lia|]. intros s' HA. rewrite B1 by again HA. cbn [bind]. rewrite E2. apply B. again HA.
Qed.
Lemma gauss_loop_reads log exp other sigma bound fuel ms put is : forall s pol st pol' st', gauss_loop fuel log exp other s sigma bound ms put is pol st = Ret (pol', st') ->
  gpos st <= gpos st' /\ forall s', agree s s' (gpos st) (gpos st') -> gauss_loop fuel log exp other s' sigma bound ms put is pol st = Ret (pol', st').
Proof.
  induction is as [|i is IH]; intros s pol st pol' st' H; cbn [gauss_loop] in *.
  - injection H as <- <-. split; [lia|]. reflexivity.
  - destruct (sample fuel log exp other s sigma bound st) as [[[c sg] st1]| |] eqn:E1; cbn [bind] in *; try discriminate. apply sample_reads in E1. destruct E1 as [A1 B1].
    apply IH in H. destruct H as [A B]. split; [lia|]. intros s' HA. rewrite B1 by again HA. cbn [bind]. apply B. again HA.
Qed.
Lemma gauss_reads fuel log exp other s r sigma bound level put pol st pol' st' : gauss_poly fuel log exp other s r sigma bound level put pol st = Ret (pol', st') ->
  gpos st + length (gbuf st) <= gpos st' /\ forall s', agree s s' (gpos st) (gpos st') -> gauss_poly fuel log exp other s' r sigma bound level put pol st = Ret (pol', st').
Proof.
  unfold gauss_poly, refill, Clock. destruct (_ && _); [|discriminate]. intros H. apply gauss_loop_reads in H. cbn [ggen pos] in H. destruct H as [A B]. split; [exact A|].
  intros s' HA. rewrite (block_agree s s') by again HA. apply B. again HA.
Qed.

(** ** The length of the Gaussian buffer is kept *)
Notation blen st := (length (gbuf st)).
Lemma block_length s p n : length (block s p n) = n.
Proof. unfold block. rewrite map_length, seq_length. reflexivity. Qed.
Lemma ready_len s st : blen (ready s st) = blen st.
Proof. unfold ready, Clock. destruct (Nat.eqb _ _); [cbn [gbuf]; apply block_length|reflexivity]. Qed.
Lemma tail_len log fuel : forall s st x st', tail fuel log s st = Ret (x, st') -> blen st' = blen st.
Proof.
  induction fuel as [|f IH]; intros s st x st' H; [discriminate|]. cbn [tail] in *. destruct (slice _ _ 8) as [b| |]; cbn [bind] in *; try discriminate.
  destruct (slice _ _ 8) as [b2| |]; cbn [bind] in *; try discriminate. destruct (Bleb _ _); [injection H as <- <-|apply IH in H; rewrite H]; cbn [advance gbuf]; rewrite ready_len; cbn [advance gbuf]; apply ready_len.
Qed.
Lemma norm_len log exp fuel : forall s st x st', normFloat64 fuel log exp s st = Ret (x, st') -> blen st' = blen st.
Proof.
  induction fuel as [|f IH]; intros s st x st' H; [discriminate|]. cbn [normFloat64] in *. destruct (slice _ _ 4) as [b| |]; cbn [bind] in *; try discriminate.
  destruct (wn_at _) as [w| |]; cbn [bind] in *; try discriminate. destruct (index kn _) as [k| |]; cbn [bind] in *; try discriminate.
  destruct (_ <? k)%Z; [injection H as <- <-; cbn [advance gbuf]; apply ready_len|]. destruct (Nat.eqb _ 0).
  { destruct (tail _ _ _ _) as [[y st2]| |] eqn:E; cbn [bind] in *; try discriminate. injection H as <- <-. apply tail_len in E. rewrite E. cbn [advance gbuf]. apply ready_len. }
  destruct (slice _ _ 8) as [b2| |]; cbn [bind] in *; try discriminate. destruct (fn_at _) as [f1| |]; cbn [bind] in *; try discriminate. destruct (fn_at _) as [f0| |]; cbn [bind] in *; try discriminate.
  destruct (Bltb _ _); [injection H as <- <-|apply IH in H; rewrite H]; cbn [advance gbuf]; rewrite ready_len; cbn [advance gbuf]; apply ready_len.
Qed.
Lemma sample_len log exp other sigma bound fuel : forall s st x st', sample fuel log exp other s sigma bound st = Ret (x, st') -> blen st' = blen st.
Proof.
  induction fuel as [|f IH]; intros s st x st' H; [discriminate|]. cbn [sample] in *. destruct (normFloat64 _ _ _ _ _) as [[[y sg] st1]| |] eqn:E1; cbn [bind] in *; try discriminate. apply norm_len in E1.
  destruct (_ <=? w64 bound)%Z; [injection H as <- <-; exact E1|apply IH in H; rewrite H; exact E1].
Qed.
Lemma gauss_loop_len log exp other sigma bound fuel ms put is : forall s pol st pol' st', gauss_loop fuel log exp other s sigma bound ms put is pol st = Ret (pol', st') -> blen st' = blen st.
Proof.
  induction is as [|i is IH]; intros s pol st pol' st' H; cbn [gauss_loop] in *; [injection H as <- <-; reflexivity|].
  destruct (sample _ _ _ _ _ _ _ _) as [[[c sg] st1]| |] eqn:E1; cbn [bind] in *; try discriminate. apply sample_len in E1. apply IH in H. rewrite H. exact E1.
Qed.

(** ** The samplers of a key generator *)
Notation spos st := (pos (smGen st)).
Lemma read_gauss_fresh src r level pol st pol' st' : blen (smGauss st) = 1024 -> read_gauss src r level pol st = Ret (pol', st') ->
  spos st + 1024 <= spos st' /\ blen (smGauss st') = 1024 /\ smHw st' = smHw st /\
  forall s', agree (srBytes src) s' (spos st) (spos st') -> read_gauss (with_bytes src s') r level pol st = Ret (pol', st').
Proof.
  intros HB. unfold read_gauss. destruct (Gauss_ReadLvl _ _ _ _ _ _ _ _ _ _ _) as [[p g]| |] eqn:E; cbn [bind]; try discriminate. intros H. injection H as <- <-.
  assert (E' := E). unfold Gauss_ReadLvl in E. apply gauss_reads in E. destruct E as [A B]. unfold smGen. cbn [smGauss smHw]. split; [lia|]. split.
  { unfold Gauss_ReadLvl, gauss_poly in E'. destruct (_ && _); [|discriminate]. apply gauss_loop_len in E'. rewrite E'. unfold refill, Clock. cbn [gbuf]. rewrite block_length. exact HB. }
  split; [reflexivity|]. intros s' HA. unfold with_bytes. cbn [srFuel srBytes srSigma srLog srExp srOther]. change (srBound _) with (srBound src).
  unfold Gauss_ReadLvl. rewrite B by exact HA. reflexivity.
Qed.
Lemma read_uniform_fresh src r level pol st pol' st' : read_uniform src r level pol st = Ret (pol', st') ->
  spos st + rN r <= spos st' /\ blen (smGauss st') = blen (smGauss st) /\ smHw st' = smHw st /\
  forall s', agree (srBytes src) s' (spos st) (spos st') -> read_uniform (with_bytes src s') r level pol st = Ret (pol', st').
Proof.
  unfold read_uniform. destruct (Uniform_ReadLvl _ _ _ _ _ _) as [[p g]| |] eqn:E; cbn [bind]; try discriminate. intros H. injection H as <- <-.
  apply uniform_reads in E. destruct E as [A B]. unfold setGen, smGen in *. cbn [smGauss ggen gbuf smHw]. split; [lia|]. split; [reflexivity|]. split; [reflexivity|].
  intros s' HA. cbn [with_bytes srFuel srBytes]. rewrite B by exact HA. reflexivity.
Qed.
Lemma read_ternary_fresh src r level pol st pol' st' : read_ternary src r level pol st = Ret (pol', st') ->
  spos st + ternary_bytes (rN r) (smHw st) <= spos st' /\ blen (smGauss st') = blen (smGauss st) /\
  forall s', agree (srBytes src) s' (spos st) (spos st') -> read_ternary (with_bytes src s') r level pol st = Ret (pol', st').
Proof.
  unfold read_ternary. destruct (sampleSparse _ _ _ _ _ _ _ _) as [[[p hw] g]| |] eqn:E; cbn [bind]; try discriminate. intros H. injection H as <- <-.
  apply sparse_reads in E. destruct E as [A B]. unfold setGen, smGen, ternary_bytes in *. cbn [smGauss ggen gbuf]. split; [lia|]. split; [reflexivity|].
  intros s' HA. cbn [with_bytes srFuel srBytes]. rewrite B by exact HA. reflexivity.
Qed.
Lemma ok_len st : samplers_ok st -> blen (smGauss st) = 1024.
Proof. intros H. apply H. Qed.

Lemma secret_fresh src rQ rP st : reads_fresh smGen (fun src => DrawSecretKey src rQ rP) (ternary_bytes (rN rQ) (smHw st)) src st.
Proof.
  intros a st' H. unfold DrawSecretKey in *. destruct (read_ternary src _ _ _ _) as [[s0 st0]| |] eqn:E; cbn [bind] in *; try discriminate. injection H as <- <-.
  apply read_ternary_fresh in E. destruct E as (A & _ & B). split; [exact A|]. intros s' HA. rewrite B by exact HA. reflexivity.
Qed.
Lemma public_fresh src rQ rP sk st : samplers_ok st -> reads_fresh smGen (fun src => DrawPublicKey src rQ rP sk) (digit_bytes (rN rQ) (rN rP)) src st.
Proof.
  intros HO a st' H. apply ok_len in HO. unfold DrawPublicKey in *. destruct (read_gauss src _ _ _ _) as [[e st1]| |] eqn:E1; cbn [bind] in *; try discriminate.
  destruct (read_uniform src rQ _ _ _) as [[aQ st2]| |] eqn:E2; cbn [bind] in *; try discriminate. destruct (read_uniform src rP _ _ _) as [[aP st3]| |] eqn:E3; cbn [bind] in *; try discriminate.
  injection H as <- <-. apply (read_gauss_fresh _ _ _ _ _ _ _ HO) in E1. apply read_uniform_fresh in E2. apply read_uniform_fresh in E3.
  destruct E1 as (A1 & _ & _ & B1), E2 as (A2 & _ & _ & B2), E3 as (A3 & _ & _ & B3). unfold digit_bytes. split; [lia|]. intros s' HA.
  rewrite B1 by again HA. cbn [bind]. rewrite B2 by again HA. cbn [bind]. rewrite B3 by again HA. reflexivity.
Qed.
Lemma digits_fresh src rQ rP n : forall st l st', blen (smGauss st) = 1024 -> draw_digits src rQ rP n st = Ret (l, st') ->
  spos st + n * digit_bytes (rN rQ) (rN rP) <= spos st' /\
  forall s', agree (srBytes src) s' (spos st) (spos st') -> draw_digits (with_bytes src s') rQ rP n st = Ret (l, st').
Proof.
  induction n as [|n IH]; intros st l st' HO H; cbn [draw_digits] in *; [injection H as <- <-; split; [lia|]; reflexivity|].
  destruct (read_gauss src _ _ _ _) as [[e st1]| |] eqn:E1; cbn [bind] in *; try discriminate.
  destruct (read_uniform src rQ _ _ _) as [[aQ st2]| |] eqn:E2; cbn [bind] in *; try discriminate. destruct (read_uniform src rP _ _ _) as [[aP st3]| |] eqn:E3; cbn [bind] in *; try discriminate.
  destruct (draw_digits src _ _ _ _) as [[l4 st4]| |] eqn:E4; cbn [bind] in *; try discriminate. injection H as <- <-.
  apply (read_gauss_fresh _ _ _ _ _ _ _ HO) in E1. apply read_uniform_fresh in E2. apply read_uniform_fresh in E3.
  destruct E1 as (A1 & L1 & _ & B1), E2 as (A2 & L2 & _ & B2), E3 as (A3 & L3 & _ & B3). apply IH in E4; [|lia]. destruct E4 as (A4 & B4). unfold digit_bytes in *. split; [lia|]. intros s' HA.
  rewrite B1 by again HA. cbn [bind]. rewrite B2 by again HA. cbn [bind]. rewrite B3 by again HA. cbn [bind]. rewrite B4 by again HA. reflexivity.
Qed.
Lemma relin_fresh src conv p sk poolQP poolQ pool0 pool1 st : samplers_ok st ->
  reads_fresh smGen (fun src => DrawRelinKey src conv p sk poolQP poolQ pool0 pool1) (key_digits (fpQ p) (fpP p) * digit_bytes (rN (fpQ p)) (rN (fpP p))) src st.
Proof.
  intros HO a st' H. apply ok_len in HO. unfold DrawRelinKey in *. destruct (draw_digits src _ _ _ _) as [[l st1]| |] eqn:E; cbn [bind] in *; try discriminate. injection H as <- <-.
  apply digits_fresh in E; [|exact HO]. destruct E as [A B]. split; [exact A|]. intros s' HA. rewrite B by exact HA. reflexivity.
Qed.
Lemma rot_fresh src conv p k sk poolQP poolQ pool0 pool1 st : samplers_ok st ->
  reads_fresh smGen (fun src => DrawRotKey src conv p k sk poolQP poolQ pool0 pool1) (key_digits (fpQ p) (fpP p) * digit_bytes (rN (fpQ p)) (rN (fpP p))) src st.
Proof.
  intros HO a st' H. apply ok_len in HO. unfold DrawRotKey in *. destruct (draw_digits src _ _ _ _) as [[l st1]| |] eqn:E; cbn [bind] in *; try discriminate. injection H as <- <-.
  apply digits_fresh in E; [|exact HO]. destruct E as [A B]. split; [exact A|]. intros s' HA. rewrite B by exact HA. reflexivity.
Qed.
Lemma encryption_fresh src rQ rP pk roots buf logSlots msg out pool poolP0 poolP1 enc : samplers_ok (feSm enc) ->
  reads_fresh (fun enc => smGen (feSm enc)) (fun src => DrawEncryptMsg src rQ rP pk roots buf logSlots msg out pool poolP0 poolP1) (rN rQ + ternary_bytes (rN rQ) (smHw (feSm enc)) + 2048) src enc.
Proof.
  intros HO a enc' H. apply ok_len in HO. unfold DrawEncryptMsg, draw_encryption in *. destruct (read_uniform src _ _ _ _) as [[c1 st1]| |] eqn:E1; cbn [bind] in *; try discriminate.
  destruct (read_ternary src _ _ _ _) as [[u st2]| |] eqn:E2; cbn [bind] in *; try discriminate. destruct (read_gauss src _ _ u _) as [[e0 st3]| |] eqn:E3; cbn [bind] in *; try discriminate.
  destruct (read_gauss src _ _ e0 _) as [[e1 st4]| |] eqn:E4; cbn [bind] in *; try discriminate.
  destruct (EncryptMsg _ _ _ _ _ _ _ _ _ _ _ _ _ _ _) as [[c pt]|] eqn:E5; try discriminate. injection H as <- <-. cbn [feSm].
  apply read_uniform_fresh in E1. apply read_ternary_fresh in E2. destruct E1 as (A1 & L1 & H1 & B1), E2 as (A2 & L2 & B2).
  apply (read_gauss_fresh _ _ _ _ _ _ _ (eq_trans L2 (eq_trans L1 HO))) in E3. destruct E3 as (A3 & L3 & H3 & B3).
  apply (read_gauss_fresh _ _ _ _ _ _ _ L3) in E4. destruct E4 as (A4 & L4 & H4 & B4). rewrite H1 in A2. split; [lia|]. intros s' HA.
  rewrite B1 by again HA. cbn [bind]. rewrite B2 by again HA. cbn [bind]. rewrite B3 by again HA. cbn [bind]. rewrite B4 by again HA. cbn [bind]. rewrite E5. reflexivity.
Qed.
