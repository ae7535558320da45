(** Prelude: 3-vectors and 3x3 matrices with explicit entries, for the camera models. *)
From Verif Require Export RAux.
Open Scope R_scope.

Record vec3 := V3 { vx : R; vy : R; vz : R }.
Record mat3 := M3 { e11 : R; e12 : R; e13 : R; e21 : R; e22 : R; e23 : R; e31 : R; e32 : R; e33 : R }.

(** numpy A @ B *)
Definition mul3 (A B : mat3) : mat3 :=
  M3 (e11 A * e11 B + e12 A * e21 B + e13 A * e31 B) (e11 A * e12 B + e12 A * e22 B + e13 A * e32 B) (e11 A * e13 B + e12 A * e23 B + e13 A * e33 B)
     (e21 A * e11 B + e22 A * e21 B + e23 A * e31 B) (e21 A * e12 B + e22 A * e22 B + e23 A * e32 B) (e21 A * e13 B + e22 A * e23 B + e23 A * e33 B)
     (e31 A * e11 B + e32 A * e21 B + e33 A * e31 B) (e31 A * e12 B + e32 A * e22 B + e33 A * e32 B) (e31 A * e13 B + e32 A * e23 B + e33 A * e33 B).
(** numpy A @ v and v @ A *)
Definition mv3 (A : mat3) (v : vec3) : vec3 :=
  V3 (e11 A * vx v + e12 A * vy v + e13 A * vz v) (e21 A * vx v + e22 A * vy v + e23 A * vz v) (e31 A * vx v + e32 A * vy v + e33 A * vz v).
Definition vm3 (v : vec3) (A : mat3) : vec3 :=
  V3 (vx v * e11 A + vy v * e21 A + vz v * e31 A) (vx v * e12 A + vy v * e22 A + vz v * e32 A) (vx v * e13 A + vy v * e23 A + vz v * e33 A).
Definition t3 (A : mat3) : mat3 :=
  M3 (e11 A) (e21 A) (e31 A) (e12 A) (e22 A) (e32 A) (e13 A) (e23 A) (e33 A).
Definition id3 : mat3 := M3 1 0 0 0 1 0 0 0 1.
Definition zero3 : mat3 := M3 0 0 0 0 0 0 0 0 0.
Definition det3 (A : mat3) : R :=
  e11 A * (e22 A * e33 A - e23 A * e32 A) - e12 A * (e21 A * e33 A - e23 A * e31 A) + e13 A * (e21 A * e32 A - e22 A * e31 A).
Definition adj3 (A : mat3) : mat3 :=
  M3 (e22 A * e33 A - e23 A * e32 A) (e13 A * e32 A - e12 A * e33 A) (e12 A * e23 A - e13 A * e22 A)
     (e23 A * e31 A - e21 A * e33 A) (e11 A * e33 A - e13 A * e31 A) (e13 A * e21 A - e11 A * e23 A)
     (e21 A * e32 A - e22 A * e31 A) (e12 A * e31 A - e11 A * e32 A) (e11 A * e22 A - e12 A * e21 A).
Definition scale3 (c : R) (A : mat3) : mat3 :=
  M3 (c * e11 A) (c * e12 A) (c * e13 A) (c * e21 A) (c * e22 A) (c * e23 A) (c * e31 A) (c * e32 A) (c * e33 A).
Definition vadd3 (u v : vec3) : vec3 := V3 (vx u + vx v) (vy u + vy v) (vz u + vz v).
Definition vsub3 (u v : vec3) : vec3 := V3 (vx u - vx v) (vy u - vy v) (vz u - vz v).
Definition vscale3 (c : R) (v : vec3) : vec3 := V3 (c * vx v) (c * vy v) (c * vz v).
Definition dot3 (u v : vec3) : R := vx u * vx v + vy u * vy v + vz u * vz v.
Definition norm3 (v : vec3) : R := sqrt (dot3 v v).
Definition zerov3 : vec3 := V3 0 0 0.

(** A rotation: orthogonal with determinant 1 *)
Definition rotation (A : mat3) : Prop := mul3 A (t3 A) = id3 /\ mul3 (t3 A) A = id3 /\ det3 A = 1.

Lemma mat3_eq A B : e11 A = e11 B -> e12 A = e12 B -> e13 A = e13 B -> e21 A = e21 B -> e22 A = e22 B -> e23 A = e23 B ->
  e31 A = e31 B -> e32 A = e32 B -> e33 A = e33 B -> A = B.
Proof. destruct A, B; cbn; intros; subst; reflexivity. Qed.
Lemma vec3_eq u v : vx u = vx v -> vy u = vy v -> vz u = vz v -> u = v.
Proof. destruct u, v; cbn; intros; subst; reflexivity. Qed.

Ltac m3 := apply mat3_eq; cbn; ring.
Ltac v3 := apply vec3_eq; cbn; ring.

Lemma mul3_assoc A B C : mul3 (mul3 A B) C = mul3 A (mul3 B C).
Proof. m3. Qed.
Lemma mul3_id_l A : mul3 id3 A = A.
Proof. m3. Qed.
Lemma mul3_id_r A : mul3 A id3 = A.
Proof. m3. Qed.
Lemma t3_mul A B : t3 (mul3 A B) = mul3 (t3 B) (t3 A).
Proof. m3. Qed.
Lemma t3_t3 A : t3 (t3 A) = A.
Proof. destruct A; reflexivity. Qed.
Lemma det3_mul A B : det3 (mul3 A B) = det3 A * det3 B.
Proof. unfold det3, mul3; cbn. ring. Qed.
Lemma det3_t A : det3 (t3 A) = det3 A.
Proof. unfold det3; cbn. ring. Qed.
Lemma adj3_mul A : mul3 (adj3 A) A = scale3 (det3 A) id3.
Proof. apply mat3_eq; unfold det3; cbn; ring. Qed.
Lemma mul3_adj A : mul3 A (adj3 A) = scale3 (det3 A) id3.
Proof. apply mat3_eq; unfold det3; cbn; ring. Qed.
Lemma scale3_1 A : scale3 1 A = A.
Proof. m3. Qed.
Lemma mv3_mul A B v : mv3 (mul3 A B) v = mv3 A (mv3 B v).
Proof. v3. Qed.
Lemma vm3_t A v : vm3 v A = mv3 (t3 A) v.
Proof. v3. Qed.
Lemma mv3_id v : mv3 id3 v = v.
Proof. v3. Qed.
Lemma mv3_scale A c v : mv3 A (vscale3 c v) = vscale3 c (mv3 A v).
Proof. v3. Qed.
Lemma mv3_add A u v : mv3 A (vadd3 u v) = vadd3 (mv3 A u) (mv3 A v).
Proof. v3. Qed.

Lemma rotation_intro A : mul3 A (t3 A) = id3 -> det3 A = 1 -> rotation A.
Proof.
  intros H D. split; [exact H|]. split; [|exact D].
  assert (E : t3 A = adj3 A).
  { rewrite <- (mul3_id_l (t3 A)), <- (scale3_1 id3), <- D, <- adj3_mul, mul3_assoc, H, mul3_id_r. reflexivity. }
  rewrite E, adj3_mul, D. apply scale3_1.
Qed.
Lemma rotation_adj A : rotation A -> adj3 A = t3 A.
Proof.
  intros (H & _ & D).
  rewrite <- (mul3_id_l (t3 A)), <- (scale3_1 id3), <- D, <- adj3_mul, mul3_assoc, H, mul3_id_r. reflexivity.
Qed.
Lemma rotation_id : rotation id3.
Proof. apply rotation_intro; [m3|unfold det3; cbn; ring]. Qed.
Lemma rotation_mul A B : rotation A -> rotation B -> rotation (mul3 A B).
Proof.
  intros (H1 & H2 & H3) (G1 & G2 & G3). apply rotation_intro.
  - rewrite t3_mul, mul3_assoc, <- (mul3_assoc B), G1, mul3_id_l, H1. reflexivity.
  - rewrite det3_mul, H3, G3. ring.
Qed.
Lemma rotation_t A : rotation A -> rotation (t3 A).
Proof. intros (H1 & H2 & H3). unfold rotation. rewrite t3_t3, det3_t. auto. Qed.
Lemma rotation_not_zero : ~ rotation zero3.
Proof. intros (_ & _ & D). unfold det3 in D. cbn in D. lra. Qed.
Lemma rotation_dot A u v : rotation A -> dot3 (mv3 A u) (mv3 A v) = dot3 u v.
Proof.
  intros (_ & H & _).
  assert (E : dot3 (mv3 A u) (mv3 A v) = dot3 u (mv3 (mul3 (t3 A) A) v)) by (unfold dot3; cbn; ring).
  rewrite E, H, mv3_id. reflexivity.
Qed.
Lemma rotation_norm A v : rotation A -> norm3 (mv3 A v) = norm3 v.
Proof. intros H. unfold norm3. rewrite rotation_dot by exact H. reflexivity. Qed.
