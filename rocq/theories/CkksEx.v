(** Concrete keys and ciphertexts for the examples of ckks: degree 16, Q = 12289*97, P = 40961. *)
From Verif Require Import Word Arith PolySpec PolyProofs Ring RingProofs NTT RingOps RNSSpec RowProofs OpsProofs OpsProps BasisExt BasisProps Automorphism AutoProps Gadget Frlwe FrlweSetup GadgetSpec Repr FrlweProps Examples BasisEx FrlweEx RlweSpec Rlwe RlweKeys RlweTop RlweEx Float64 Ckks CkksSpec CkksBase CkksConst CkksOps.

Definition gQ : Ring := Eval vm_compute in ring_of 16 [12289; 97].
Definition gP : Ring := Eval vm_compute in ring_of 16 [40961].
Lemma gQ_built : built_ring 9 gQ.
Proof.
  exists 1000%nat, 16, [12289; 97]. split; [vm_compute; reflexivity|]. split; [vm_compute; discriminate|].
  intros q Hq. cbn in Hq. destruct Hq as [<- | [<- | []]]; vm_compute; discriminate.
Qed.
Lemma gP_built : built_ring 9 gP.
Proof.
  exists 1000%nat, 16, [40961]. split; [vm_compute; reflexivity|]. split; [vm_compute; discriminate|].
  intros q Hq. cbn in Hq. destruct Hq as [<- | []]; vm_compute; discriminate.
Qed.
Lemma gpair : ring_pair gQ gP.
Proof.
  split; [exact gQ_built|]. split; [exact gP_built|]. split; [reflexivity|]. intros q H1 H2. cbn in H1, H2.
  destruct H2 as [<- | []]. destruct H1 as [H1 | [H1 | []]]; discriminate.
Qed.

Lemma g_sampled X : (forall k, (k < 16)%nat -> Z.abs (X k) <= 1) -> sampled gQ gP 1 0 (res_rows gQ 1 X) X.
Proof.
  intros HX. split.
  - apply (rns_weaken gQ 1 canon); [intros i Hi; unfold canon; lia|]. apply (res_rows_repr 2); [lia|apply (one_2 gQ), gpair|cbn; lia].
  - intros k Hk. change (rN gQ) with 16%nat in Hk. specialize (HX k Hk). split; [change (mq (rmod gQ 0)) with 12289; lia|].
    intros i Hi. destruct i as [|i]; [change (mq (rmod gP 0)) with 40961; lia|lia].
Qed.

Definition zrows (l : nat) : rows := repeat (repeat 0 16) l.
Definition g_sk : rows * rows := Eval vm_compute in genSecretKey gQ gP (res_rows gQ 1 ex_s).
Lemma g_sk_eq : genSecretKey gQ gP (res_rows gQ 1 ex_s) = g_sk.
Proof. vm_compute. reflexivity. Qed.
Lemma g_secret : secret gQ 4 (fst g_sk) ex_s.
Proof. rewrite <- g_sk_eq. apply (secret_key gQ gP 4 gpair eq_refl (res_rows gQ 1 ex_s) ex_s). apply g_sampled. exact ex_s_small. Qed.

Definition g_err (i : nat) : rows := res_rows gQ 1 (ex_e i).
Definition g_aQ (i : nat) : rows := res_rows gQ 1 (ex_b1 i).
Definition g_aP (i : nat) : rows := res_rows gP 0 (ex_b1 (i + 7)).
Lemma g_random : randomness_ok gQ gP 1 0 g_err ex_e g_aQ g_aP.
Proof. intros i _. split; [apply g_sampled; apply ex_e_small|]. split; apply ex_words; first [apply gpair|cbn; lia]. Qed.

(** The relinearization key, and the key for the automorphism X -> X^5. *)
Definition g_rlk : swkey := Eval vm_compute in nth 0 (GenRelinearizationKey gQ gP g_sk 1 (fun _ => g_err) (fun _ => g_aQ) (fun _ => g_aP) (zrows 2) (zrows 2)) ([], []).
Lemma g_rlk_ok : swkey_ok gQ gP 4 1 0 g_rlk ex_s (ppow 16 ex_s 2) 1.
Proof.
  exists ex_e. split; [|intros i _ k Hk; apply ex_e_small; exact Hk].
  destruct (generated_relin_key gQ gP gpair 4 eq_refl (res_rows gQ 1 ex_s) ex_s 1 (fun _ => g_err) (fun _ => ex_e) (fun _ => g_aQ) (fun _ => g_aP) (zrows 2) (zrows 2)) as [_ H].
  - apply g_sampled. exact ex_s_small.
  - intros j _. exact g_random.
  - specialize (H 0%nat ltac:(lia)). rewrite g_sk_eq in H.
    assert (E : nth 0 (GenRelinearizationKey gQ gP g_sk 1 (fun _ => g_err) (fun _ => g_aQ) (fun _ => g_aP) (zrows 2) (zrows 2)) ([], []) = g_rlk) by (vm_compute; reflexivity).
    rewrite E in H. exact H.
Qed.

(** Two ciphertexts with pseudo-random words at level 1. *)
Definition g_words (seed q : Z) : list Z := map (fun k => let k := Z.of_nat k in ((seed * 7919 + k * 104729 + seed * seed * 31 * k * k + k * k * k * (seed mod 17)) mod 1000003) mod q) (seq 0 16).
Definition g_rows (seed : Z) (level : nat) : rows := map (fun i => g_words (seed + Z.of_nat i) (mq (rmod gQ i))) (seq 0 (S level)).
Definition g_vals (seed : Z) (level : nat) : list rows := [g_rows seed level; g_rows (seed + 50) level].
Definition g_scratch : Scratch := mkScratch (zrows 2) (zrows 2, zrows 1) (zrows 2) (zrows 1) (zrows 2) (zrows 1) (zrows 2) (zrows 2) (zrows 2).
Definition g_new (degree level : nat) : Ct := mkCt (repeat (zrows (S level)) (S degree)) f64_zero true.

(** The keys for X -> X^5 and for the conjugation: they switch from the secret to its image under the inverse. *)
Definition g_rot_key (h : Z) : swkey := genrotKey gQ gP g_sk h g_err g_aQ g_aP (zrows 2, zrows 1) (zrows 2).
Definition g_rot5 : swkey := Eval vm_compute in g_rot_key 13.
Definition g_conj : swkey := Eval vm_compute in g_rot_key 31.
Lemma g_rot_ok g h : 0 <= h -> Z.odd h = true -> (g * h) mod 32 = 1 -> rotation_key gQ gP 4 1 0 g (g_rot_key h) ex_s 1.
Proof.
  intros H1 H2 H3. exists h. split; [exact H1|]. split; [exact H2|]. split; [exact H3|].
  exists ex_e. split; [|intros i _ k Hk; apply ex_e_small; exact Hk].
  pose proof (generated_rot_key gQ gP gpair 4 eq_refl (res_rows gQ 1 ex_s) ex_s h g_err ex_e g_aQ g_aP (zrows 2, zrows 1) (zrows 2) H1 H2 (g_sampled _ ex_s_small) g_random) as H.
  rewrite g_sk_eq in H. fold (g_rot_key h) in H. destruct (g_rot_key h) as [k0 k1]. exact H.
Qed.
Lemma g_rot5_ok : rotation_key gQ gP 4 1 0 5 g_rot5 ex_s 1.
Proof. assert (E : g_rot_key 13 = g_rot5) by (vm_compute; reflexivity). rewrite <- E. apply g_rot_ok; [discriminate|reflexivity|reflexivity]. Qed.
Lemma g_conj_ok : rotation_key gQ gP 4 1 0 31 g_conj ex_s 1.
Proof. assert (E : g_rot_key 31 = g_conj) by (vm_compute; reflexivity). rewrite <- E. apply g_rot_ok; [discriminate|reflexivity|reflexivity]. Qed.
Definition g_rtks (g : Z) : option swkey := if g =? 5 then Some g_rot5 else if g =? 31 then Some g_conj else None.

Lemma g_levels : key_levels gQ gP 1 0.
Proof. split; [cbn; lia|]. split; [cbn; lia|lia]. Qed.
Lemma g_blocks level : (level <= 1)%nat -> blocks_below gQ level 0 12289.
Proof.
  intros H. destruct level as [|[|level]]; [| |lia].
  - intros i Hi. change (ceil_div (0 + 1) (0 + 1)) with 1%nat in Hi. destruct i as [|i]; [vm_compute; discriminate|lia].
  - intros i Hi. change (ceil_div (1 + 1) (0 + 1)) with 2%nat in Hi. destruct i as [|[|i]]; [vm_compute; discriminate|vm_compute; discriminate|lia].
Qed.
Lemma g_s_bound : pbound 16 1 ex_s.
Proof. exact ex_s_small. Qed.

(** Decides [ct_ok]. *)
Definition ctb (level : nat) (B : Z -> Z) (v : list rows) : bool :=
  Nat.ltb level 2 && Nat.ltb 0 (length v) && Nat.leb (length v) 7 && forallb (fun p => Nat.eqb (length p) (S level) && wordsb gQ level B p) v.
Lemma ctb_ok level B v sc : ctb level B v = true -> ct_ok gQ level B (mkCt v sc true).
Proof.
  unfold ctb. rewrite !Bool.andb_true_iff, !Nat.ltb_lt, Nat.leb_le, forallb_forall. intros [[[H1 H2] H3] H4].
  split; [exact H1|]. split; [cbn; lia|]. split; [reflexivity|]. intros j Hj. cbn [ctV] in Hj. unfold comp. cbn [ctV].
  specialize (H4 (nth j v []) (nth_In v [] Hj)). rewrite Bool.andb_true_iff, Nat.eqb_eq in H4. destruct H4 as [H4 H5]. split; [exact H4|apply wordsb_ok; exact H5].
Qed.

Lemma g_fits_canon : fits gQ canon.
Proof. exact (fits_canon gQ gQ_built 4 eq_refl). Qed.
(** Every element decrypts to some polynomial. *)
Lemma g_decrypts level B c : ct_ok gQ level B c -> fits gQ B -> exists M, decrypts gQ 4 (fst g_sk) c M.
Proof.
  intros Hc HB. destruct (ct_ok_repr gQ gQ_built 4 eq_refl level B c Hc) as [C HC]. exists (dval gQ ex_s C (length (ctV c))).
  apply (decrypts_iff gQ gQ_built 4 eq_refl level B c C (fst g_sk) ex_s _ HC HB g_secret). intros i Hi. reflexivity.
Qed.
(** The words of a decryption. *)
Definition g_dec (level : nat) (v : list rows) : rows := Decrypt gQ (fst g_sk) v true (repeat [] (S level)) false [].
Lemma g_dec_word level B c M i k : ct_ok gQ level B c -> decrypts gQ 4 (fst g_sk) c M -> (i <= level)%nat -> (k < 16)%nat ->
  eqm (mq (rmod gQ i)) (coeff (g_dec level (ctV c)) i k) (M k).
Proof.
  intros Hc HD Hi Hk. pose proof (ct_ok_level gQ 4 eq_refl level B c Hc) as El. destruct Hc as (H1 & H2 & H3 & H4).
  specialize (HD (repeat [] (S level)) false []). rewrite repeat_length, El, H3 in HD. destruct (HD ltac:(lia)) as (_ & _ & D). apply (D i Hi). exact Hk.
Qed.

(** Ciphertexts of degree 1, and a plaintext. *)
Definition g_ct (seed : Z) (level : nat) (scale : Z) : Ct := mkCt (g_vals seed level) (f64_of_Z scale) true.
Definition g_pt (seed : Z) (level : nat) (scale : Z) : Ct := mkCt [g_rows seed level] (f64_of_Z scale) true.
Lemma g_new_shaped d level : (level <= 1)%nat -> (d <= 2)%nat -> shaped d level (g_new d level).
Proof.
  intros H1 H2. split; [cbn; rewrite repeat_length; reflexivity|]. split; [reflexivity|]. intros j Hj. unfold comp, g_new. cbn [ctV].
  assert (E : nth j (repeat (zrows (S level)) (S d)) [] = zrows (S level)) by (apply (repeat_spec (S d)); apply nth_In; rewrite repeat_length; lia).
  rewrite E. unfold zrows. apply repeat_length.
Qed.
