## Areas and proof techniques

* **Quat, Rots, Ori, Se3, Geom** – quaternions, conversions, rigid motions, detector geometry: algebra over R under unit-norm hypotheses,
  trigonometric identities, explicit atan2/acos models; Taylor bounds for small-angle branches.
* **Cubo, Sphere** – homochoric, cubochoric and Rosca-Lambert maps: piecewise inverse functions; equal volume/area by computing the
  Jacobian determinant with Coquelicot derivatives.
* **Laue, Sym, S2, Samp** – symmetry tables as exact surds, group axioms by computation and reflection; argmax folds; closed-form
  fundamental zones against brute force; samplers as functions of index and draw.
* **Knn, Pca, Index, Refine, Fit** – chunk loops as folds with "best so far" invariants, oracle `topk`, oracle simulators, streaming
  covariance by induction over batches.
* **Exp, Mp, Hr, Progress** – state machines over all call sequences, refinement to a last-write-wins specification.
* **Clahe, Nlpar, Blur, Mi** – histograms and convolutions as sums, convexity, Gibbs' inequality, finite Fourier sums.
* **Factor** – number theory over Z with fuel and random oracle.
* **Monte** – electron loop with arbitrary draws; 32-bit words for the generator; interpolation and symmetrisation.
* **Sg, Cell, Kv, Diff** – space groups over Z, lattice geometry, reflections, k-vector samplings, dynamical diffraction: computation
  for all 230 groups, metric-tensor algebra, complex sums.
* **Wig, Sht, Cc, Xnum** – Wigner's explicit sum satisfies the recursion and symmetries; table loops by an invariant over flat positions;
  Driscoll-Healy quadrature by closed finite sums; spherical harmonic round trips and correlation volumes.
* **Sf** – scattering factors: exact rational evaluation per table row, exponential integrals by differential error bounds, NaN-extended
  arithmetic, tensor shapes.
* **Rfz, Col** – Rodrigues-space zones and orientation colours: closed-form maps, case analysis over the Laue group's sectors.
* **Ho** – homochoric inverses: certified polynomial bounds on the fitted series, Newton and fixed-point iteration estimates.
* **Sim** – the Monte Carlo class: loop over launches with arbitrary results, step search, resampling; mirror symmetry by induction on the
  scattering steps; counterexamples in nearest doubles.
* **Clean** – standard cleaning, NLPAR on scans and downsampling, composed from the Exp, Clahe, Nlpar and Blur theorems.
* **Fp** – floating-point versions of the quaternion product, point rotation, angular kNN and the disorientation angle: every operation rounded by an arbitrary relation (small relative and absolute error, or rounding to a nearest double); Flocq's rounding is used to relate the two.
* **Trig** – the second direct structure matrix of Cell: rotations from right triangles, half-angle identities.
* **Unit** – quaternion normalisation in floating point, on top of Fp, and its composition with the float disorientation.
* **Dir** – detector directions (apply_geometry, generate_dictionary_coords) in floating point, on top of Fp and Unit; matrix rows and norms summed in any order.
* **Rot** – qu2om in floating point and its composition with the float normalisation; the sum of squares in any order.
* **Bun** – bu2qu and bu2om in floating point; cosine and sine as relations with a bounded error, since library functions are not correctly rounded.
