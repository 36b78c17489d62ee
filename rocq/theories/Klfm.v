(** Model of src/multilevel_bisect/KLFM/KLFM.cpp. *)
From Verif Require Export Gain.

(** include/options.hpp:13-26 (struct options); size_t fields are [Z], non-negative *)
Inductive bisection_mode := BisRandom | BisMultilevel.
Inductive sampling_mode := SampRandom | SampLP.
Record options := Opts {
  o_sample_size : Z;
  o_max_clustersize : Z;       (* coarsening_max_clustersize *)
  o_lp_max_iterations : Z;
  o_nrvertices : Z;            (* coarsening_nrvertices *)
  o_maxrounds : Z;             (* coarsening_maxrounds *)
  o_max_passes : Z;            (* KLFM_max_passes *)
  o_max_no_gain : Z;           (* KLFM_max_no_gain_moves *)
  o_send_moves : Z;            (* KLFM_par_number_send_moves *)
  o_metric : metric;
  o_bisection : bisection_mode;
  o_sampling : sampling_mode;
}.

(** weights[p] -= w; weights[(p+1)%2] += w *)
Definition shift_weight (ws : Z * Z) (p w : Z) : M (Z * Z) :=
  ws1 <- padd ws p (- w) ;; padd ws1 (flip_part p) w.

(** State of the while loop of KLFM.cpp:80-103 *)
Record pass_state := PS {
  ps_G : gstruct;
  ps_ws : Z * Z;           (* weights *)
  ps_cut : Z;              (* cut_size *)
  ps_best : Z;             (* best_cut_size *)
  ps_nim : list Z;         (* no_improvement_moves *)
}.

(** KLFM.cpp:80-103: the loop condition and body *)
Definition pass_body (mx : Z * Z) (opts : options) (s : pass_state) : M (bool * pass_state) :=
  d <- gs_done (ps_G s) ;;
  let s0 := PS (snd d) (ps_ws s) (ps_cut s) (ps_best s) (ps_nim s) in
  if fst d then ret (false, s0) else
  if decide (Z.of_nat (length (ps_nim s)) < o_max_no_gain opts) then
    let x := (fst mx - fst (ps_ws s), snd mx - snd (ps_ws s)) in
    pn <- part_next (snd d) (fst x) (snd x) ;;
    let p := fst pn in
    nx <- gs_next (snd pn) p ;;
    let v := fst nx in
    let G := snd nx in
    room <- psel x (flip_part p) ;;
    u <- vert (g_H G) v ;;
    if decide (room - v_weight u >= 0) then
      gn <- gs_gain_next G p ;;
      let cut := ps_cut s - fst gn in
      ws <- shift_weight (ps_ws s) p (v_weight u) ;;
      G' <- gs_move (snd gn) v ;;
      if decide (cut > ps_best s) then
        ret (true, PS G' ws cut (ps_best s) (ps_nim s ++ [v]))
      else ret (true, PS G' ws cut cut [])
    else
      G' <- gs_remove G v ;;
      ret (true, PS G' (ps_ws s) (ps_cut s) (ps_best s) (ps_nim s))
  else ret (false, s0).

(** KLFM.cpp:105-111: rollback *)
Definition rollback (H : hg) (C : list (Z * Z)) (ws : Z * Z) (nim : list Z) : M (hg * list (Z * Z) * (Z * Z)) :=
  foldM (λ st v,
    u <- vert (fst (fst st)) v ;;
    ws' <- shift_weight (snd st) (v_part u) (v_weight u) ;;
    hc <- move (fst (fst st)) (snd (fst st)) v ;;
    ret (fst hc, snd hc, ws')) nim (H, C, ws).

(** The data a KLFM function hands back: H, C and weights are reference parameters *)
Record klfm_out := KO { ko_H : hg; ko_C : list (Z * Z); ko_ws : Z * Z; ko_cut : Z }.

(** KLFM.cpp:65-115 (KLFM_pass).  Every iteration locks a vertex, so |V|+1 rounds of fuel suffice
    (proved). *)
Definition klfm_pass (H : hg) (C : list (Z * Z)) (cut : Z) (ws mx : Z * Z) (opts : options) : M klfm_out :=
  G <- gs_new H C ;;
  s <- loopM (length (h_verts H) + 1) (pass_body mx opts) (PS G ws cut cut []) ;;
  r <- rollback (g_H (ps_G s)) (g_C (ps_G s)) (ps_ws s) (ps_nim s) ;;
  ret (KO (fst (fst r)) (snd (fst r)) (snd r) (ps_best s)).

(** KLFM.cpp:117-144 (make_balanced) *)
Record bal_state := BS { bs_G : gstruct; bs_ws : Z * Z; bs_cut : Z }.
Definition balance_body (mx : Z * Z) (part : Z) (s : bal_state) : M (bool * bal_state) :=
  w <- psel (bs_ws s) part ;;
  m <- psel mx part ;;
  if decide (w > m) then
    d <- gs_bucket_done (bs_G s) part ;;
    if fst d then ret (false, BS (snd d) (bs_ws s) (bs_cut s)) else
    nx <- gs_next (snd d) part ;;
    let v := fst nx in
    let G := snd nx in
    u <- vert (g_H G) v ;;
    ow <- psel (bs_ws s) (flip_part part) ;;
    om <- psel mx (flip_part part) ;;
    if decide (ow + v_weight u <= om) then
      gn <- gs_gain_next G part ;;
      ws <- shift_weight (bs_ws s) part (v_weight u) ;;
      G' <- gs_move (snd gn) v ;;
      ret (true, BS G' ws (bs_cut s - fst gn))
    else
      G' <- gs_remove G v ;;
      ret (true, BS G' (bs_ws s) (bs_cut s))
  else ret (false, s).
Definition make_balanced (H : hg) (C : list (Z * Z)) (cut : Z) (ws mx : Z * Z) : M klfm_out :=
  G <- gs_new H C ;;
  let part := if decide (snd ws > snd mx) then 1 else 0 in
  s <- loopM (length (h_verts H) + 1) (balance_body mx part) (BS G ws cut) ;;
  ret (KO (g_H (bs_G s)) (g_C (bs_G s)) (bs_ws s) (bs_cut s)).

(** KLFM.cpp:21-60 (KLFM); [cut] = long_max means "not given" *)
Definition klfm (H : hg) (C : list (Z * Z)) (ws mx : Z * Z) (opts : options) (cut : Z) : M klfm_out :=
  prev <- (if decide (cut = long_max) then cutsize_counts H C else ret cut) ;;
  H1 <- sort_vertices_on_part H C ;;
  b <- (if decide (fst ws > fst mx ∨ snd ws > snd mx) then make_balanced H1 C prev ws mx
        else ret (KO H1 C ws prev)) ;;
  r <- loopM (Z.to_nat (o_max_passes opts) + 1)
    (λ '(pass, o),
       if decide (pass < o_max_passes opts) then
         o' <- klfm_pass (ko_H o) (ko_C o) (ko_cut o) (ko_ws o) mx opts ;;
         if decide (ko_cut o' < ko_cut o) then ret (true, (pass + 1, o'))
         else ret (false, (pass, KO (ko_H o') (ko_C o') (ko_ws o') (ko_cut o)))
       else ret (false, (pass, o))) (0, b) ;;
  ret (snd r).
