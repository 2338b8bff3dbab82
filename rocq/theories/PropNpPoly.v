(** The numpy implementation of the polygonal chamber (C95). *)
From Verif Require Import Num Geom Poly SpecPoly NpPoly SpecNpPoly NpPolyFacts ExGeom ExNpPoly.

(** Both implementations agree on which points are outside. *)
Theorem C95_same_inside : forall vs cx cy p q x y,
  poly_ctor (map fst vs) (map snd vs) cx cy true = Some p ->
  np_ctor (map fst vs) (map snd vs) cx cy = Some q ->
  np_outside q x y = p_outside p x y.
Proof. exact np_same_inside. Qed.
Print Assumptions C95_same_inside.
Example C95_same_inside_case : exists p q,
  poly_ctor (map fst (rectv 1 1)) (map snd (rectv 1 1)) (99/100*1) (99/100*1) true = Some p /\
  np_ctor (map fst (rectv 1 1)) (map snd (rectv 1 1)) (99/100*1) (99/100*1) = Some q /\
  insc_ok (rectv 1 1) (99/100*1) (99/100*1).
Proof. exact np_rect. Qed.

(** For every outline, tracks that start inside raise no exception and the
    points returned are inside and on the line of the track. *)
Theorem C95_inside : forall p resc ks,
  Forall (fun k => np_outside p (t_xin k) (t_yin k) = false) ks ->
  exists hs, np_impact p resc true ks = Some hs /\
    Forall2 (fun k hi => np_outside p (h_x (fst hi)) (h_y (fst hi)) = false /\ h_z (fst hi) = 0 /\
      exists t, h_pt (fst hi) = along (t_start k) (t_end k) t) ks hs.
Proof. exact np_impact_inside. Qed.
Print Assumptions C95_inside.
Example C95_inside_case : exists q : poly, np_ctor (map fst (rectv 1 1)) (map snd (rectv 1 1)) (99/100*1) (99/100*1) = Some q /\
  np_outside q (t_xin kc) (t_yin kc) = false.
Proof. exact np_inside_case. Qed.

(** In a convex chamber, with or without the robust option, a track that
    starts inside and does not end inside gives the first point where it
    meets the wall, moved back by the rescaling factor, the inward unit normal
    of an edge that holds this point and its number: the last one if there are
    several.  The end of the track may be on the wall. *)
Theorem C95_first_touch : forall vs cx cy p q resc robust ks,
  poly_ctor (map fst vs) (map snd vs) cx cy true = Some p ->
  np_ctor (map fst vs) (map snd vs) cx cy = Some q -> insc_ok vs cx cy -> 0 < resc < 1 ->
  Forall (fun k => inside vs (t_start k) /\ ~ inside vs (t_end k)) ks ->
  exists hs, np_impact q resc robust ks = Some hs /\
    Forall2 (fun k hi =>
      exists t i, first_touch vs k t i /\ snd hi = Z.of_nat i /\
        h_pt (fst hi) = along (t_start k) (t_end k) (resc * t) /\ inside vs (h_pt (fst hi)) /\
        left_normal (vert vs i) (vert vs (i + 1)) (h_nx (fst hi)) (h_ny (fst hi)) /\
        forall j, (j < length vs)%nat ->
          on_segment (vert vs j) (vert vs (j + 1)) (along (t_start k) (t_end k) t) -> (j <= i)%nat) ks hs.
Proof. exact np_impact_convex. Qed.
Print Assumptions C95_first_touch.
Example C95_first_touch_case : (inside (rectv 1 1) (t_start kw) /\ ~ inside (rectv 1 1) (t_end kw)) /\
  (inside (rectv 1 1) (t_start kd) /\ beyond (rectv 1 1) (t_end kd)).
Proof. exact (conj kw_ok kd_ok). Qed.

(** Both implementations give the same impact points; they give the same
    normal and the same edge unless the track goes into a corner, where the
    compiled one takes the first and this one the last of the edges. *)
Theorem C95_agree : forall vs cx cy p q resc ks,
  poly_ctor (map fst vs) (map snd vs) cx cy true = Some p ->
  np_ctor (map fst vs) (map snd vs) cx cy = Some q -> insc_ok vs cx cy -> 0 < resc < 1 ->
  Forall (fun k => inside vs (t_start k) /\ beyond vs (t_end k)) ks ->
  exists hs hs', poly_impact p resc ks = Some hs /\ np_impact q resc true ks = Some hs' /\
    length hs = length ks /\ length hs' = length ks /\
    Forall2 (fun k hh => let '(c, m) := hh in
      exists t i, first_crossing vs k t (snd c) /\ first_crossing vs k t i /\ snd m = Z.of_nat i /\
        h_pt (fst m) = h_pt (fst c) /\ h_z (fst m) = h_z (fst c) /\
        left_normal (vert vs (snd c)) (vert vs (snd c + 1)) (h_nx (fst c)) (h_ny (fst c)) /\
        left_normal (vert vs i) (vert vs (i + 1)) (h_nx (fst m)) (h_ny (fst m)) /\
        (forall j, (j < length vs)%nat ->
          on_segment (vert vs j) (vert vs (j + 1)) (along (t_start k) (t_end k) t) -> (snd c <= j <= i)%nat) /\
        (only_edge vs (along (t_start k) (t_end k) t) i -> snd c = i /\ fst m = fst c)) ks (combine hs hs').
Proof. exact impacts_agree. Qed.
Print Assumptions C95_agree.
Example C95_agree_case : (inside (rectv 1 1) (t_start kd) /\ beyond (rectv 1 1) (t_end kd)) /\
  only_edge (rectv 1 1) (along (t_start kd) (t_end kd) (1/2)) 3.
Proof. exact (conj kd_ok kd_only). Qed.

(** In a corner the normals of the two implementations differ. *)
Theorem C95_corner_refuted : exists vs cx cy p q k c m i,
  poly_ctor (map fst vs) (map snd vs) cx cy true = Some p /\
  np_ctor (map fst vs) (map snd vs) cx cy = Some q /\ insc_ok vs cx cy /\
  inside vs (t_start k) /\ beyond vs (t_end k) /\
  poly_impact p (99/100) [k] = Some [(c, 0%nat)] /\ np_impact q (99/100) true [k] = Some [(m, Z.of_nat i)] /\
  i <> 0%nat /\ (h_nx c, h_ny c) <> (h_nx m, h_ny m).
Proof. exact corner_witness. Qed.
Print Assumptions C95_corner_refuted.

(** The outline is not checked: a clockwise one is accepted, although the
    compiled implementation refuses it, and points inside it are outside. *)
Theorem C95_clockwise_refuted : exists vs cx cy q x y,
  (forall cv, poly_ctor (map fst vs) (map snd vs) cx cy cv = None) /\
  np_ctor (map fst vs) (map snd vs) cx cy = Some q /\
  inside (rev vs) (x, y) /\ np_outside q x y = true.
Proof. exact clockwise_witness. Qed.
Print Assumptions C95_clockwise_refuted.

(** A track of zero length gets a normal that is not a unit vector. *)
Theorem C95_no_impact_refuted : exists vs cx cy q k m,
  np_ctor (map fst vs) (map snd vs) cx cy = Some q /\ insc_ok vs cx cy /\ inside vs (t_start k) /\
  np_impact q (99/100) true [k] = Some [(m, (-1)%Z)] /\
  h_nx m * h_nx m + h_ny m * h_ny m <> 1.
Proof. exact fallback_witness. Qed.
Print Assumptions C95_no_impact_refuted.
