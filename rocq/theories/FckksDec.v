(** Decryption with a pooled plaintext. *)
From Verif Require Import Word ModRed Arith PolySpec PolyProofs Ring RingProofs NTT RingOps RNSSpec RowProofs OpsProofs OpsProps Repr BasisExt BasisProps Automorphism Scaling Gadget GadgetSpec Frlwe FrlweSetup RlweSpec Rlwe RlweBase RlweKeys RlweTop Float64 Ckks CkksSpec CkksBase CkksConst CkksOps Fckks FckksSpec.

Lemma decrypt_length r sk ct ctN pt ptNTT pool : length (Decrypt r sk ct ctN pt ptNTT pool) = S (Nat.min (length (nth 0 ct []) - 1) (length pt - 1)) \/ pt = [].
Proof.
  destruct pt as [|x pt]; [right; reflexivity|left]. unfold Decrypt. set (level := Nat.min _ _). set (p1 := firstn (S level) (x :: pt)).
  assert (L1 : length p1 = S level) by (unfold p1; rewrite firstn_length; unfold level; cbn [length]; lia).
  set (p2 := if ctN then _ else _).
  assert (L2 : length p2 = S level) by (unfold p2; destruct ctN; [unfold CopyValuesLvl|unfold NTTLazyLvl, op1]; rewrite lvl_length, L1; lia).
  assert (HS : forall i p q, length p = S level -> length (fst (decrypt_step r level ct ctN sk (p, q) i)) = S level).
  { intros i p q Hp. unfold decrypt_step. set (y := MulCoeffsMontgomeryLvl r level p sk p).
    assert (Ly : length y = S level) by (unfold y, MulCoeffsMontgomeryLvl, op2; rewrite lvl_length; lia).
    destruct ctN; cbn [fst]; destruct (_ =? _); unfold ReduceLvl, AddLvl, op1, op2; rewrite !lvl_length; lia. }
  assert (HL : forall l p q, length p = S level -> length (fst (fold_left (decrypt_step r level ct ctN sk) l (p, q))) = S level).
  { induction l as [|i l IH]; intros p q Hp; [exact Hp|]. cbn [fold_left]. specialize (HS i p q Hp). destruct (decrypt_step r level ct ctN sk (p, q) i) as [p' q']. apply IH. exact HS. }
  specialize (HL (rev (seq 1 (length ct - 1))) p2 pool L2). destruct (fold_left _ _ _) as [p3 q3]. cbn [fst] in HL.
  set (p4 := if Z.land (Z.of_nat (length ct - 1)) 7 =? 7 then p3 else ReduceLvl r level p3 p3).
  assert (L4 : length p4 = S level).
  { unfold p4. destruct (_ =? _); [exact HL|]. unfold ReduceLvl, op1. rewrite lvl_length. lia. }
  clearbody p4. destruct ptNTT; [exact L4|]. unfold InvNTTLvl, op1. rewrite lvl_length. lia.
Qed.

Lemma pooled_state r sk cs : (0 < length (rmods r))%nat ->
  let d := decrypt_all (NewFDecryptor r sk) cs in fdRing d = r /\ fdSk d = sk /\ length (fdPt d) = S (lowest r cs).
Proof.
  intros Hr. unfold decrypt_all, lowest.
  assert (G : forall cs d l, fdRing d = r -> fdSk d = sk -> length (fdPt d) = S l ->
    let d' := fold_left (fun d c => snd (decrypt_pooled d c)) cs d in
    fdRing d' = r /\ fdSk d' = sk /\ length (fdPt d') = S (fold_left (fun l c => Nat.min l (ctLevel c)) cs l)).
  { clear. induction cs as [|c cs IH]; intros d l H1 H2 H3; [auto|]. cbn [fold_left]. apply IH; [exact H1|exact H2|]. unfold decrypt_pooled. cbn [snd fdPt].
    destruct (decrypt_length (fdRing d) (fdSk d) (ctV c) (ctNTT c) (fdPt d) true (fdPool d)) as [E|E]; [|rewrite E in H3; discriminate].
    rewrite E, H3. unfold ctLevel, comp. f_equal. cbn [Nat.sub]. lia. }
  apply G; [reflexivity|reflexivity|]. unfold NewFDecryptor, maxLevel. cbn [fdPt]. unfold zero_rows. rewrite repeat_length. lia.
Qed.

Section Pooled.
  Variables (rQ : Ring).
  Hypothesis (BQ : built_ring 9 rQ).
  Variables (L : nat).
  Hypothesis (EL : rN rQ = (2 ^ L)%nat).

  Lemma pooled_decrypt cs level B c sk s M : secret rQ L sk s -> ct_ok rQ level B c -> fits rQ B -> decrypts rQ L sk c M ->
    let '(pt, sc, _) := decrypt_pooled (decrypt_all (NewFDecryptor rQ sk) cs) c in
    let l := Nat.min (lowest rQ cs) level in sc = ctScale c /\ length pt = S l /\ rns_ntt rQ L l canon pt M.
  Proof.
    intros Hs HC HB HD. destruct (ct_ok_repr rQ BQ L EL level B c HC) as [C HR].
    assert (H0 : (0 < length (rmods rQ))%nat) by (destruct HC; lia).
    destruct (pooled_state rQ sk cs H0) as (S1 & S2 & S3). set (d := decrypt_all (NewFDecryptor rQ sk) cs) in *. clearbody d.
    unfold decrypt_pooled. rewrite S1, S2. set (l := Nat.min (lowest rQ cs) level). split; [reflexivity|].
    pose proof (ct_repr_level rQ L EL _ _ _ _ HR) as El. assert (HV := proj1 (decrypts_iff rQ BQ L EL level B c C sk s M HR HB Hs) HD).
    assert (LE : l = Nat.min (length (nth 0 (ctV c) []) - 1) (length (fdPt d) - 1)) by (rewrite S3; unfold ctLevel, comp in El; rewrite El; unfold l; lia).
    destruct HR as (H1 & H2 & H3 & H4). split.
    - destruct (decrypt_length rQ sk (ctV c) (ctNTT c) (fdPt d) true (fdPool d)) as [E|E]; [|rewrite E in S3; discriminate]. rewrite E, <- LE. reflexivity.
    - rewrite H3. apply (ntt_peq rQ L EL l canon _ (dval rQ s C (length (ctV c)))); [intros i Hi; apply HV; unfold l in Hi; lia|].
      apply (dec_correct rQ BQ L EL l B (ctV c) sk C s) with (ptNTT := true).
      + unfold l. lia.
      + intros i Hi. apply HB. unfold l in Hi. lia.
      + intros j Hj. apply (ntt_level rQ L EL level); [unfold l; lia|]. apply (H4 j Hj).
      + apply (secret_level rQ L EL sk s l); [unfold l; lia|exact Hs].
      + exact (proj1 H2).
      + exact LE.
      + right. rewrite Nat.mod_small; lia.
  Qed.
End Pooled.
