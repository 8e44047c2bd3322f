(** Small concrete objects used by the non-vacuity examples. *)
From Verif Require Import Word Ring RingOps RNSSpec.

Definition ring_of (N : Z) (ms : list Z) : Ring :=
  match NewRing 1000 N ms with inl r => r | inr _ => mkRing 0 0 [] 0 [] end.

(** Degree 16, moduli 97, 193 and 257. *)
Definition ring16 : Ring := Eval vm_compute in ring_of 16 [97; 193; 257].

Lemma ring16_built : built_ring 8 ring16.
Proof.
  exists 1000%nat, 16, [97; 193; 257]. split; [vm_compute; reflexivity|].
  split; [vm_compute; discriminate|]. intros q Hq. cbn in Hq.
  destruct Hq as [<- | [<- | [<- | []]]]; vm_compute; discriminate.
Qed.

Lemma ring16_built4 : built_ring 4 ring16.
Proof.
  destruct ring16_built as (fuel & N & ms & E & H1 & H2). exists fuel, N, ms.
  split; [exact E|]. split; [exact H1|]. intros q Hq. specialize (H2 q Hq).
  unfold W in *. lia.
Qed.

(** Decides [words]. *)
Definition wordsb (r : Ring) (level : nat) (B : Z -> Z) (p : rows) : bool :=
  Nat.ltb level (length p) &&
  forallb (fun i => Nat.eqb (length (nth i p [])) (rN r) &&
                    forallb (fun x => (0 <=? x) && (x <? B (mq (rmod r i)))) (nth i p []))
          (seq 0 (S level)).

Lemma wordsb_ok r level B p : wordsb r level B p = true -> words r level B p.
Proof.
  unfold wordsb, words, coeff. rewrite Bool.andb_true_iff, Nat.ltb_lt, forallb_forall.
  intros [H1 H2]. split; [exact H1|]. intros i Hi.
  specialize (H2 i). rewrite in_seq in H2. specialize (H2 ltac:(lia)).
  rewrite Bool.andb_true_iff, Nat.eqb_eq, forallb_forall in H2. destruct H2 as [H2 H3].
  split; [exact H2|]. intros k Hk. specialize (H3 (nth k (nth i p []) 0)).
  rewrite Bool.andb_true_iff, Z.leb_le, Z.ltb_lt in H3. apply H3. apply nth_In. rewrite H2. exact Hk.
Qed.

Definition poly_a : rows := [[0; 96; 5; 96; 0; 3; 96; 0; 1; 2; 3; 4; 5; 6; 7; 8]; repeat 192 16; [1; 2; 3; 4; 5; 6; 7; 8; 9; 10; 11; 12; 13; 14; 15; 256]].
Definition poly_b : rows := [repeat 96 16; [7; 7; 7; 7; 190; 191; 192; 0; 0; 0; 0; 0; 0; 0; 0; 1]; [5; 0; 0; 0; 0; 0; 0; 0; 0; 0; 0; 0; 0; 0; 0; 2]].

(** Degree 16 with 61-bit moduli: four for Q, one for P. *)
From Verif Require Import Pocklington.
Definition big_Q : list Z := [2305840015621488641; 2305838495203065857; 2305824682588241921; 2305823729105502209].
Definition big_P : list Z := [2305772447195987969].
Definition ringBigQ : Ring := Eval vm_compute in certified_ring 1000 16 big_Q.
Definition ringBigP : Ring := Eval vm_compute in certified_ring 1000 16 big_P.
Lemma ringBigQ_built : built_ring 8 ringBigQ.
Proof. apply (certified_literal 1000 16 big_Q (repeat [(2, 32%nat, 3)] 4)); [vm_compute; reflexivity|vm_compute; reflexivity|discriminate]. Qed.
Lemma ringBigP_built : built_ring 8 ringBigP.
Proof. apply (certified_literal 1000 16 big_P (repeat [(2, 32%nat, 3)] 1)); [vm_compute; reflexivity|vm_compute; reflexivity|discriminate]. Qed.
