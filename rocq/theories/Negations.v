(** Refutations by witnesses, stated as negations of the claims. *)
From Coq Require Import ZArith Reals Bool Lia Lra.
From Verif Require Import CModel FloatModel WidthConv Spec SpecFacts WidthApi Arith Wrappers LogApi LinApi WidthProps WaySpec.
Local Open Scope Z_scope.

Lemma two_steps_differ : forall k A B C f g h, narrowing k A B f -> narrowing k B C g -> narrowing k A C h ->
  exists t, is_intn A t /\ (let! u := f t in g u) <> h t.
Proof.
  intros k A B C f g h Hf Hg Hh. destruct Hf; inversion Hg; subst; inversion Hh; subst;
  first [ exists 0x40800001; split; [unfold is_intn; lia|vm_compute; discriminate]
        | exists 0x4080000000000001; split; [unfold is_intn; lia|vm_compute; discriminate]
        | exists 0x4000800000000001; split; [unfold is_intn; lia|vm_compute; discriminate] ].
Qed.
Lemma square_root_of_square_differs : 
  (forall n mul sqrt abs, linear_multiplication n mul -> linear_square_root n sqrt -> absolute_value Linear n abs ->
    exists a s, is_intn n a /\ 2 ^ (n - 2) < a < 2 ^ (n - 2) + 2 ^ (n - 4) /\ mul a a = Val s /\ 2 ^ (n - 2) < s < 2 ^ (n - 2) + 2 ^ (n - 3) /\ sqrt s <> abs a) /\
  (exists a s, is_intn 8 a /\ 0 < a < 127 /\ takum8_multiplication x86_64 a a = Val s /\ 0 < s < 127 /\ takum8_square_root x86_64 s <> takum8_absolute a).
Proof.
  split.
  - intros n mul sqrt abs Hm Hs Ha. destruct Hm; inversion Hs; subst; inversion Ha; subst.
    + exists 68, 72. split; [unfold is_intn; lia|]. split; [vm_compute; split; reflexivity|]. split; [vm_compute; reflexivity|]. split; [vm_compute; split; reflexivity|vm_compute; discriminate].
    + exists 17233, 18432. split; [unfold is_intn; lia|]. split; [vm_compute; split; reflexivity|]. split; [vm_compute; reflexivity|]. split; [vm_compute; split; reflexivity|vm_compute; discriminate].
    + exists 1129336628, 1207959553. split; [unfold is_intn; lia|]. split; [vm_compute; split; reflexivity|]. split; [vm_compute; reflexivity|]. split; [vm_compute; split; reflexivity|vm_compute; discriminate].
    + exists 4850463880207263305, 5188146770730811392. split; [unfold is_intn; lia|]. split; [vm_compute; split; reflexivity|]. split; [vm_compute; reflexivity|]. split; [vm_compute; split; reflexivity|vm_compute; discriminate].
  - exists 89, 96. split; [unfold is_intn; lia|]. split; [lia|]. split; [vm_compute; reflexivity|]. split; [lia|vm_compute; discriminate].
Qed.
Lemma root64_of_reciprocal :
  ~ (forall a e, is_real_takum 64 a -> is_int64 e -> e <> 0 ->
       (let! b := takum64_inversion a in takum64_root x86_64 b e) = (let! r := takum64_root x86_64 a e in takum64_inversion r)) /\
  ~ (forall a e, is_real_takum 64 a -> is_int64 e -> is_int64 (- e) -> e <> 0 ->
       takum64_root x86_64 a (- e) = (let! r := takum64_root x86_64 a e in takum64_inversion r)).
Proof.
  split; intros H.
  - specialize (H 0x4000000000000035 21 ltac:(unfold is_real_takum, is_intn, nar; lia) ltac:(unfold is_int64; lia) ltac:(lia)). vm_compute in H. discriminate.
  - specialize (H 0x4000000000000035 21 ltac:(unfold is_real_takum, is_intn, nar; lia) ltac:(unfold is_int64; lia) ltac:(unfold is_int64; lia) ltac:(lia)). vm_compute in H. discriminate.
Qed.
