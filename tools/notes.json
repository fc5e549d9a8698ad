{
 "C04": {
  "note": "The size-check expectation is false of the code (grid update does not check); refutation with witness, plus the true statement for sized messages."
 },
 "C05": {
  "note": "Reals: all grids. binary64: under stated magnitude bounds; false for far origins (refuted theorem)."
 },
 "C07": {
  "note": "Off-map points left of or below the origin are undefined behaviour; refuted expectation with witness, true parts proved. The undefined behaviour also in binary64 for cells of at most 1 m."
 },
 "C13": {
  "note": "Proved for radii up to 46340 cells and robot cells up to 2^30; sharp (46341 overflows)."
 },
 "C15": {
  "note": "Expectation refuted with binary64 witnesses; blind zone characterised; unreported diagonal cells at every distance; edge-adjacent pairs and axis cells are always reported."
 },
 "C33": {
  "note": "Expectation refuted: any used beam touching a negative cell makes the update undefined; witness as Example."
 },
 "C32": {
  "note": "binary64, for every exp/log obeying the annex F rules listed in SpecMapping.explog_rules."
 },
 "C69": {
  "note": "Expectation refuted with binary64 witness; general statement about the base cell proved."
 },
 "C70": {
  "note": "First half in exact arithmetic (reals), second half in binary64."
 },
 "C42": {
  "note": "Expectation refuted with witness; counts, ids and positions proved."
 },
 "C40": {
  "note": "Non-empty targets over the reals; empty target NaN in binary64."
 },
 "C48": {
  "note": "Expectation refuted (the weights of the fifth-order estimate do not sum to one); the exact result of a step is proved."
 },
 "C49": {
  "note": "Termination of the adaptive loop proved for any arithmetic; the expectation on storage is refuted with a witness, one more column is proved to suffice. The fit after the loop is the subject of C80."
 },
 "C50": {
  "note": "Success and failure, both overloads, binary64 and reals. Over the reals failure also covers costs within 1e-12 of the maximum double."
 },
 "C52": {
  "note": "Expectation refuted: inverted windows, lateral velocity of the cart node, rounding of the accumulated sum (complete binary64 runs). A window that is not inverted stays within the limits but for the rounding of the samples, in binary64."
 },
 "C54": {
  "note": "Index in range over the reals, with the exact limit, and in binary64 for at most 2^24 steps; the empty reference in binary64."
 },
 "C55": {
  "note": "Reals; binary64 with NaN as the only exception, which occurs (C56_refuted)."
 },
 "C56": {
  "note": "Holds over the reals; binary64: throws only after NaN columns, and a complete run in which it throws."
 },
 "C58": {
  "note": "Expectation refuted for a new target and for a shifted map; exact conditions for recomputation proved over the reals."
 },
 "C57": {
  "note": "Any arithmetic, except the orientation of the path (reals)."
 },
 "C71": {
  "note": "Reals. Memory exhaustion is not modelled."
 },
 "C72": {
  "note": "Reals; Omni model and SimpleCart with zero lateral limits."
 },
 "C63": {
  "note": "Any arithmetic, any interleaving."
 },
 "C64": {
  "note": "binary64, any libm. (Over the reals the check of the window differs only in its strictness at the largest double.)"
 },
 "C65": {
  "note": "Any arithmetic; bound and tightness."
 },
 "C66": {
  "note": "Any arithmetic; the zero twist in binary64."
 },
 "C67": {
  "note": "Two complete binary64 runs of the cart node as witnesses."
 },
 "C68": {
  "note": "Any arithmetic."
 },
 "C74": {
  "note": "The two exact behaviours off the map are proved over the reals; the expectation that a free map is enough is refuted by a binary64 run of the node."
 },
 "C75": {
  "note": "Over the reals, and in binary64 up to the rounding of the samples or NaN, under the stated assumption on odometry; without it refuted by a binary64 run."
 },
 "C76": {
  "note": "The node's own check is not enough: refuted by a binary64 run. One step to spare is enough: proved over the reals."
 },
 "C77": {
  "note": "Over the reals; memory exhaustion is not modelled."
 },
 "C80": {
  "note": "arma::polyfit is a parameter: assumed is only that through at least five points of a line with different abscissae it returns a quartic of least squared deviation (an instance is given). That it throws for fewer than five points is Armadillo's documented requirement, not visible in /repo. Real arithmetic."
 },
 "C06": {
  "note": "Reals, and binary64 up to 2^-19 of a cell."
 },
 "C08": {
  "note": "Reals and binary64; false in binary64 for far lower limits (refuted theorem)."
 },
 "C81": {
  "note": "Real arithmetic."
 },
 "C82": {
  "note": "The stored points; the quartic fitted to them is C80 (constant velocity only)."
 },
 "C83": {
  "note": "The expectation that the scheme is Fehlberg's fails by the stated excess (see C48)."
 },
 "C85": {
  "note": "The expectation that integers and decimals are interchangeable is refuted for the coordinates of the targets. XmlRpcValue and NodeHandle are modelled from their documented behaviour."
 },
 "C86": {
  "note": "Completion of every iteration is over the reals; in binary64 the start and the limits are proved."
 },
 "C87": {
  "note": "Real arithmetic. That the coefficients may come from an earlier map with another origin is the defect refuted in C58."
 },
 "C89": {
  "note": "Planning still reads one map per iteration; the velocity of the robot is read once."
 },
 "C90": {
  "note": "Stated for the exponents as computed; C95_out_of_sight gives it for real distances."
 },
 "C91": {
  "note": "The accuracy asked of sine and cosine is a hypothesis, met by correctly rounded functions; C91_one_ulp_refuted shows that the part on the cosine near 0 is needed."
 },
 "C92": {
  "note": "The radii are the whole cells that the code computes. The motion is assumed to stay on the map, by the accumulated rounding error."
 },
 "C93": {
  "note": "A covariance whose inverse is not finite, nonnegative and at most 2^30 is outside the statement, as are values that all underflow to zero (C90)."
 },
 "C94": {
  "note": "The map is assumed not to change within one collision check; walls that are on some of the maps only are kept clear of around the checks on those."
 },
 "C95": {
  "note": "The overload of the Gaussian without a translation, which the node does not call, is outside the statement."
 },
 "C96": {
  "note": "The coefficients of the trajectory and the target are taken to be as many as the modes, as the basis makes them."
 }
}