(** C12-C16, C51: chamber geometry. *)
From Coq Require Import Lra Lia Reals.
From Verif Require Import Num NumFacts Geom SpecGeom GeomFacts Poly SpecPoly PolyGeo PolyFacts ExGeom.

(** C12.  Elliptic chamber, any semi-axes, any rescaling factor and any tracks:
    the impact routine succeeds and all points it returns are strictly inside
    the ellipse. *)
Theorem C12_inside : forall e resc ks, ellip_ok e ->
  exists hs, ell_impact e resc ks = Some hs /\ Forall2 (fun (k : track) h => in_ellipse e (h_x h) (h_y h)) ks hs.
Proof. exact ell_impact_inside_only. Qed.
Print Assumptions C12_inside.

(** C12.  A track that starts inside and ends on or outside the wall is put
    back on the track itself: at the rescaled crossing point or, if that is in its
    first hundredth or the step is short, at its start. *)
Theorem C12_on_track : forall e resc ks, ellip_ok e -> 0 < resc < 1 ->
  Forall (fun k => in_ellipse e (t_xin k) (t_yin k) /\ ~ in_ellipse e (t_xout k) (t_yout k)) ks ->
  exists hs, ell_impact e resc ks = Some hs /\ 
    Forall2 (fun k h => hit_on_track k h /\
      ((1 / 100 <= resc * ell_root e k /\ ~ short_step k /\ (h_x h, h_y h, h_z h) = on_track k (resc * ell_root e k)) \/
       ((resc * ell_root e k < 1 / 100 \/ short_step k) /\ (h_x h, h_y h, h_z h) = (t_xin k, t_yin k, t_zin k)))) ks hs.
Proof. exact ell_impact_track. Qed.
Print Assumptions C12_on_track.

(** C12.  The crossing point used there lies on the ellipse. *)
Theorem C12_crossing_on_wall : forall e k,
  ellip_ok e -> in_ellipse e (t_xin k) (t_yin k) -> ~ in_ellipse e (t_xout k) (t_yout k) ->
  let '(x, y, _) := on_track k (ell_root e k) in
  0 < ell_root e k <= 1 /\ x * x / (e_a e * e_a e) + y * y / (e_b e * e_b e) = 1.
Proof. exact ell_root_on_wall. Qed.
Print Assumptions C12_crossing_on_wall.

(** C12.  The test used to find impacting macroparticles is the complement of
    the inside of the ellipse. *)
Theorem C12_outside_test : forall e x y, ellip_ok e -> (ell_outside e x y = false <-> in_ellipse e x y).
Proof. exact ell_outside_spec. Qed.
Print Assumptions C12_outside_test.

Example C12_example : ellip_ok (mkEllip 2 1) /\
  in_ellipse (mkEllip 2 1) 0 0 /\ ~ in_ellipse (mkEllip 2 1) 3 0.
Proof. unfold ellip_ok, in_ellipse; simpl. repeat split; try lra. Qed.

(** C13.  Any polygonal chamber, convex or not: tracks that start inside give
    points that the chamber itself calls inside, on the transverse track. *)
Theorem C13_inside_on_track : forall p resc ks, 0 < resc < 1 ->
  Forall (fun k => p_outside p (t_xin k) (t_yin k) = false) ks ->
  exists hs, poly_impact p resc ks = Some hs /\
    Forall2 (fun k hi => p_outside p (h_x (fst hi)) (h_y (fst hi)) = false /\
      exists t, 0 <= t < 1 /\ h_pt (fst hi) = along (t_start k) (t_end k) t /\ h_z (fst hi) = 0) ks hs.
Proof. exact poly_impact_inside. Qed.
Print Assumptions C13_inside_on_track.

(** C13, C14.  Convex chamber: a track that starts inside and ends beyond the
    wall is put at the rescaled first crossing, strictly inside; the segment
    is the one crossed first and the normal is its unit inward normal. *)
Theorem C13_first_crossing : forall vs cx cy p resc ks,
  poly_ctor (map fst vs) (map snd vs) cx cy true = Some p -> insc_ok vs cx cy -> 0 < resc < 1 ->
  Forall (fun k => inside vs (t_start k) /\ beyond vs (t_end k)) ks ->
  exists hs, poly_impact p resc ks = Some hs /\
    Forall2 (fun k hi =>
      exists t, first_crossing vs k t (snd hi) /\
        h_pt (fst hi) = along (t_start k) (t_end k) (resc * t) /\ inside vs (h_pt (fst hi)) /\
        left_normal (vert vs (snd hi)) (vert vs (snd hi + 1)) (h_nx (fst hi)) (h_ny (fst hi)) /\
        left_of (vert vs (snd hi)) (vert vs (snd hi + 1)) (t_end k) < 0) ks hs.
Proof. exact poly_impact_convex. Qed.
Print Assumptions C13_first_crossing.

(** C13 fails in the longitudinal coordinate: the impact point is at z = 0,
    not on the track. *)
Theorem C13_longitudinal_refuted : exists vs cx cy p k h i,
  poly_ctor (map fst vs) (map snd vs) cx cy true = Some p /\ insc_ok vs cx cy /\
  inside vs (t_start k) /\ beyond vs (t_end k) /\
  poly_impact p (99/100) [k] = Some [(h, i)] /\
  forall t, 0 <= t <= 1 -> h_z h <> t_zin k + t * (t_zout k - t_zin k).
Proof. exact z_lost_witness. Qed.
Print Assumptions C13_longitudinal_refuted.

(** C14, elliptic chamber: unit normals that point opposite to the gradient of
    the ellipse equation at the returned point, for any tracks. *)
Theorem C14_ellipse_normals : forall e resc ks, ellip_ok e ->
  exists hs, ell_impact e resc ks = Some hs /\
    Forall2 (fun (k : track) h => in_ellipse e (h_x h) (h_y h) /\ unit_normal h /\ inward_normal e h) ks hs.
Proof. exact ell_impact_inside. Qed.
Print Assumptions C14_ellipse_normals.

(** C14, convex polygon: the normal is a unit vector, the segment index is in
    range and the track really meets that segment. *)
Theorem C14_polygon_normals : forall vs cx cy p resc ks,
  poly_ctor (map fst vs) (map snd vs) cx cy true = Some p -> insc_ok vs cx cy -> 0 < resc < 1 ->
  Forall (fun k => inside vs (t_start k) /\ beyond vs (t_end k)) ks ->
  exists hs, poly_impact p resc ks = Some hs /\
    Forall2 (fun k hi => (snd hi < length vs)%nat /\
      unit_normal (fst hi) /\
      0 < h_nx (fst hi) * (t_xin k - t_xout k) + h_ny (fst hi) * (t_yin k - t_yout k) /\
      exists t, 0 < t < 1 /\
        on_segment (vert vs (snd hi)) (vert vs (snd hi + 1)) (along (t_start k) (t_end k) t)) ks hs.
Proof. exact poly_normals. Qed.
Print Assumptions C14_polygon_normals.

(** C14 fails for every track that ends exactly on the wall: the chamber calls
    the end point outside, but the normal is (0, 0) and the segment is 0. *)
Theorem C14_end_on_wall : forall vs cx cy p resc k,
  poly_ctor (map fst vs) (map snd vs) cx cy true = Some p -> insc_ok vs cx cy -> 0 < resc < 1 ->
  (forall u, 0 <= u < 1 -> inside vs (along (t_start k) (t_end k) u)) ->
  exists h, poly_impact p resc [k] = Some [(h, 0%nat)] /\ h_nx h = 0 /\ h_ny h = 0 /\
    h_pt h = along (t_start k) (t_end k) resc.
Proof. exact end_on_wall. Qed.
Print Assumptions C14_end_on_wall.

Theorem C14_end_on_wall_refuted : exists vs cx cy p k h,
  poly_ctor (map fst vs) (map snd vs) cx cy true = Some p /\ insc_ok vs cx cy /\
  inside vs (t_start k) /\ p_outside p (t_xout k) (t_yout k) = true /\
  poly_impact p (99/100) [k] = Some [(h, 0%nat)] /\ h_nx h = 0 /\ h_ny h = 0 /\
  forall t, 0 <= t <= 1 -> ~ on_segment (vert vs 0) (vert vs 1) (along (t_start k) (t_end k) t).
Proof. exact end_on_wall_witness. Qed.
Print Assumptions C14_end_on_wall_refuted.

(** C15.  Chambers accepted as convex: inside means strictly on the left of
    every edge. *)
Theorem C15_convex_test : forall vs cx cy p x y,
  poly_ctor (map fst vs) (map snd vs) cx cy true = Some p -> insc_ok vs cx cy ->
  (p_outside p x y = false <-> inside vs (x, y)).
Proof. exact convex_test. Qed.
Print Assumptions C15_convex_test.

(** C15.  Points of the outline count as outside. *)
Theorem C15_boundary_outside : forall vs cx cy p q,
  poly_ctor (map fst vs) (map snd vs) cx cy true = Some p -> insc_ok vs cx cy ->
  on_outline_of vs q -> p_outside p (fst q) (snd q) = true.
Proof. exact boundary_outside. Qed.
Print Assumptions C15_boundary_outside.

(** C15, rectangular chambers, with no condition on the inscribed ellipse. *)
Theorem C15_rectangle : forall xa ya p x y, 0 < xa -> 0 < ya -> rect_ctor xa ya true = Some p ->
  (p_outside p x y = false <-> Rabs x < xa /\ Rabs y < ya).
Proof. exact rect_outside. Qed.
Print Assumptions C15_rectangle.

Example C15_example : exists p, rect_ctor 2 1 true = Some p /\ insc_ok (rectv 2 1) (99/100*2) (99/100*1) /\
  p_outside p 1 0 = false.
Proof.
  destruct (rect_accepted 2 1 true) as (p & Hp); try lra. exists p. split; auto. split.
  - apply rect_insc; lra.
  - apply (rect_outside 2 1); auto; try lra. rewrite Rabs_R0, Rabs_R1. lra.
Qed.

(** C16.  Rejections: short edges (other than the closing one), clockwise
    outlines, mixed turns when convexity is assumed. *)
Theorem C16_short_edge_rejected : forall vs cx cy cv i, (i + 1 < length vs)%nat ->
  edge_len vs i < 1 / 10^9 -> poly_ctor (map fst vs) (map snd vs) cx cy cv = None.
Proof. exact reject_short. Qed.
Print Assumptions C16_short_edge_rejected.

Theorem C16_clockwise_rejected : forall vs cx cy cv, shoelace vs < 0 ->
  poly_ctor (map fst vs) (map snd vs) cx cy cv = None.
Proof. exact reject_clockwise. Qed.
Print Assumptions C16_clockwise_rejected.

Theorem C16_mixed_turns_rejected : forall vs cx cy i j, (i < length vs)%nat -> (j < length vs)%nat ->
  0 < left_of (vert vs i) (vert vs (i + 1)) (vert vs (i + 2)) ->
  left_of (vert vs j) (vert vs (j + 1)) (vert vs (j + 2)) < 0 ->
  poly_ctor (map fst vs) (map snd vs) cx cy true = None.
Proof. exact reject_mixed. Qed.
Print Assumptions C16_mixed_turns_rejected.

(** C16.  Conversely nothing else is rejected. *)
Theorem C16_accepts : forall vs cx cy cv, vs <> [] ->
  (forall i, (i + 1 < length vs)%nat -> 1 / 10^9 <= edge_len vs i) -> 0 <= shoelace vs ->
  (cv = true -> left_turning vs) ->
  exists p, poly_ctor (map fst vs) (map snd vs) cx cy cv = Some p.
Proof. exact ctor_accepts. Qed.
Print Assumptions C16_accepts.

(** C16.  Accepted chambers have a unit left normal on every edge but possibly
    the closing one, and their area is the shoelace area. *)
Theorem C16_normals_partial : forall vs cx cy cv p i,
  poly_ctor (map fst vs) (map snd vs) cx cy cv = Some p -> (i + 1 < length vs)%nat ->
  exists nx ny, nth i (Nrm p) None = Some (nx, ny) /\ left_normal (vert vs i) (vert vs (i + 1)) nx ny.
Proof. exact accepted_normal_len. Qed.
Print Assumptions C16_normals_partial.

Theorem C16_area : forall vs cx cy cv p,
  poly_ctor (map fst vs) (map snd vs) cx cy cv = Some p -> p_area p = shoelace vs /\ 0 <= shoelace vs.
Proof. exact accepted_area. Qed.
Print Assumptions C16_area.

(** C16 fails: a repeated first vertex at the end is accepted although the
    closing edge has zero length; that edge has no normal (NaN). *)
Theorem C16_closing_edge_refuted : exists p,
  poly_ctor (map fst closing_vs) (map snd closing_vs) (1/2) (1/2) true = Some p /\
  edge_len closing_vs 4 = 0 /\ nth 4 (Nrm p) None = None.
Proof. exact closing_accepted. Qed.
Print Assumptions C16_closing_edge_refuted.

(** C16 fails: a five-pointed star is accepted as convex. *)
Theorem C16_star_refuted : exists p,
  poly_ctor (map fst star_vs) (map snd star_vs) 1 1 true = Some p /\
  exists s u, 0 < s < 1 /\ 0 < u < 1 /\
    along (vert star_vs 0) (vert star_vs 1) s = along (vert star_vs 2) (vert star_vs 3) u.
Proof. exact star_accepted. Qed.
Print Assumptions C16_star_refuted.

(** C16 fails: three points on a line are accepted, with no inside at all. *)
Theorem C16_flat_refuted : exists p,
  poly_ctor (map fst flat_vs) (map snd flat_vs) 1 1 true = Some p /\ shoelace flat_vs = 0 /\
  forall q, ~ inside flat_vs q.
Proof. exact flat_accepted. Qed.
Print Assumptions C16_flat_refuted.

Example C16_example : exists p, rect_ctor 2 1 true = Some p /\ rect_ctor 2 1 true =
   poly_ctor (map fst (rectv 2 1)) (map snd (rectv 2 1)) (99/100*2) (99/100*1) true.
Proof. destruct (rect_accepted 2 1 true) as (p & Hp); try lra. exists p. split; [exact Hp|reflexivity]. Qed.

(** C51.  The test whether a point is on the edge of a chamber, for any
    accepted chamber and any point. *)
Theorem C51_on_edge : forall vs cx cy cv p x y,
  poly_ctor (map fst vs) (map snd vs) cx cy cv = Some p ->
  (vertex_is_on_edge p x y = true <-> on_outline_of vs (x, y)).
Proof. exact vertex_is_on_edge_spec. Qed.
Print Assumptions C51_on_edge.

(** C51.  Two chambers are compatible exactly when all vertices of each lie on
    the outline of the other. *)
Theorem C51_subset : forall vs cx cy cv p vs' cx' cy' cv' p',
  poly_ctor (map fst vs) (map snd vs) cx cy cv = Some p ->
  poly_ctor (map fst vs') (map snd vs') cx' cy' cv' = Some p' ->
  (vertexes_are_subset p p' = true <->
   (forall q, In q vs' -> on_outline_of vs q) /\ (forall q, In q vs -> on_outline_of vs' q)).
Proof. exact subset_spec. Qed.
Print Assumptions C51_subset.

Example C51_example : exists p, rect_ctor 2 1 true = Some p /\ vertexes_are_subset p p = true.
Proof.
  destruct (rect_accepted 2 1 true) as (p & Hp); try lra. exists p. split; auto.
  rewrite rect_ctor_poly in Hp. apply (subset_spec _ _ _ _ _ _ _ _ _ _ Hp Hp). 
  assert (G : forall q, In q (rectv 2 1) -> on_outline_of (rectv 2 1) q) by exact rect_self_outline. auto.
Qed.
