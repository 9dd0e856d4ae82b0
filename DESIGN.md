# FiberMat in Rocq: design

Model of `/repo` (fmahe/fibermat, Python on numpy/pandas/scipy) in Coq 8.16.1, under `rocq/theories`
(logical name `Verif`). Build: `cd rocq && coq_makefile -f _CoqProject -o Makefile && make -j4`.

## 1. Numbers and oracles

* Finite floats are rationals, so all data is modelled in `Q`, computed **exactly** (no rounding).
  All decisions (`<`, `<=`, `!= 0`) are boolean tests on `Q`, so the whole model runs under `vm_compute`.
* Where the code meets `inf`/`nan` (checks, moduli, stiffness, constraint bounds, solver, interpolation) the
  model uses `num = Fin q | PInf | NInf | NaN` with IEEE rules (nan comparisons false, inf*0 = nan,
  inf-inf = nan, x/0 = +-inf or nan). Signed zeros are not modelled.
* `np.pi` is the rational value of the double.
* Euclidean norms are only compared with thresholds: the model compares squares (the recorded error of the
  solver is kept as its square).
* cos, sin, the random generator, `linprog`, the sparse linear solver and `KDTree` are oracles: function
  arguments of the model. Theorems quantify over them; what is assumed of them is a hypothesis of the theorem
  (section 4), met by a concrete oracle in an example.

## 2. Files

| file | content |
|---|---|
| `Num.v` `NumP.v`, `ListX.v` `ListP.v` | numbers; lists, stable sort, argsort, roll, groupby; their lemmas |
| `Frames.v` | exceptions as values, attributes, tables with labels/columns/attributes |
| `MatM` `NetM` `StackM` `MeshM` `ModelM` `SolverM` `InterpM` `ResultM` `ErrorM` `RenderM` `VtkM` `PlotM` `MainM` `PictureM` `ColourM` `NotebookM` `ScriptsM` `SettingsM` `AliasM` `ButtonsM` `TestsM` | models, one per module of the code (`MainM`: the script main.py; `NotebookM`: the cells of jupyter-notebook.ipynb; `ScriptsM`: scripts/square.py, scripts/logo.py and the names of the package; `ResultM`: the interpolated results of `solve`; `AliasM`: attribute dictionaries shared between tables), definitions only; every definition cites the lines it models |
| `Spec*.v` | the specifications used in the statements, written without the helpers of the models |
| `*P.v`, `GaussX.v` | proofs; `GaussX`/`GaussP`: an exact elimination, used as solver in examples |
| `Props*.v` | the property theorems, each closed by a proved lemma, with `Print Assumptions` and non-vacuity examples |
| `Conform.v` | runs of the model on the data of the repository's own tests and docstrings, with numpy's generator seeded by 0 (tests, not proofs) |

`Conform.v` compares the model with what the authors printed: the tables of `test_mat.py`,
`test_net.py` and `test_mesh.py` (Mat(10), its Net, Stack and Mesh) and the three stiffness matrices
in the docstring of `model.py`.  The model was also extracted once to OCaml (outside the build) and
run on Mat(100): it gave the 867 rows and 1734 nodes, and all the rows printed in the docstrings
of mat.py 57-70, net.py 46-66, net.py 427-440 and mesh.py 40-60, digit for digit.

## 3. How each property is modelled and proved

* **C01-C04, C64 (mats)**: the check as a function from a raw table (column names, labels, attributes, possibly infinite or NaN entries) to `Ok true`/exception, proved equivalent to a Prop; `Mat.init` over an abstract generator and abstract cos/sin, induction on n.
* **C05-C15, C65 (networks)**: `Net.init` step by step: images of fibers in periodic mode, pairs, prefilter on the distance of centres, 2x2 normal equations, filter, argsort, removal of duplicates, end rows. Lemmas on stable sort and first-occurrence removal; planar geometry with squares of norms.
* **C16-C22, C71 (stacks)**: the linear program as data; optimality as a predicate; the least feasible point by induction along the labels; duality by summation by parts for the contact forces.
* **C23-C28 (meshes)**: `Mesh.init` by stable sort, inverse permutation, roll inside groups.
* **C29-C35, C56, C57 (assembly)**: coordinate lists over `num`; the quadratic form as a sum over elements; the bounds row by row.
* **C36-C45, C58, C66, C67 (solver)**: the loop as a fuelled function over an arbitrary linear solver; invariants by induction on the steps; relation of two runs for the renumbering property.
* **C46-C50, C59, C60, C68 (results)**: scipy's `interp1d` (searchsorted, clip, slope; previous) as written; the results of `solve` as functions of the recorded history.
* **C51-C53, C61, C69 (rendering)**: location of a point between nodes (tree as an oracle returning any nearest node) and the cubic Hermite spline with its derivatives.
* **C78 (picture of the system)**: the places of each colour against the entries of the bordered matrix and the gaps of the contacts; the error printed against the one recorded by solve.
* **C80, C81 (energy)**: bilinear forms over coordinate lists; virtual work of the contact forces against any admissible displacement; positivity of the stiffness (C31) and its kernel give minimality and uniqueness.
* **C82, C83 (pictures)**: lists of lines; rows and nodes correspond by the numbering of C23 and C25; the order of heights across a connection is kept by non-penetration; the mask of the stack picture is aligned with its rows by C22, and complementary slackness (C71) gives the distance.
* **C91 (fibers and colours)**: segments as convex combinations of their ends; the scale as numpy.interp on two knots; the last fiber carries nothing and the loads are minus the forces from above (C71), which gives the ends of the scale.
* **C79 (main script)**: the functions of the other models composed as in main.py; its theorems chain theirs.
* **C84 (notebook)**: the settings read as arguments, then the same functions in the order of the cells; equality of the cells with main.py run under the identity numbering; the refutations compute two meshes.
* **C85-C87 (scripts)**: the names bound by the imports as association lists; the same functions composed on any valid mat; the cells of the mask by floor; the draws of the logo followed through the generator.
* **C88-C90 (progress)**: energy of the solution of the homogeneous system: zero bending by coercivity (|coupling| < 1), zero translation along the chains of contacts that hold a fiber, zero forces column by column; hence regularity, exact steps, and the comparison of runs by C43 and C75 up to a last compressed state, recognised in both runs.
* **C94 (stiffening)**: variational inequality between two states (complementary slackness of one against the displacement of the other) gives monotonicity of the pairing of loads and travels; a supporting line at every state gives convexity, then carried over to the piecewise linear functions returned; direct solvers by C88_strict.
* **C95 (packing)**: the chain of C85 with the progress of C88 and the stiffening of C94; the cells of the notebook by their equality with main.py.
* **C96 (targets)**: one step with two error tolerances, induction on the shorter run; both interpolations on the same interval.
* **C97 (piles)**: induction on the labels: admissible heights are above every pile, supported heights are attained by one; orders compared by induction on the labels of one mat.
* **C98 (torus)**: the conditions of C65 (closeness, common perpendicular, feet inside) rewritten for shifted and reversed fibers, composed with the motions of C72.
* **C99 (tests)**: the loop of the test as a fold equal to the sweep of C17, entry by entry; uniqueness of the optimum gives both directions.
* **C100 (move)**: rows of both networks aligned by their strictly increasing pairs (C05) and C98; the sorts and groupings of Mesh.init are parametric in abscissae up to a positive factor; then C89 for fibers and nodes as solve sees them, and the interpolations are linear in the samples.
* **C101 (defaults)**: each call as a computation on the state of the generator (DefaultsM); answer and final state of every call computed once, sessions by induction; the stack without a network by uniqueness of the optimum (C17).
* **C102 (classes)**: tables with a class and optional columns (ClassesM); dispatch computed by cases on the class, the builders being those of NetM, StackM, MeshM; copies by loss of the class.
* **C103 (dtypes)**: astype after the call of InterpM (DtypeM); truncation towards zero is monotone and fixes integers, so bounds and samples of C46-C49 carry over.
* **C104 (other names)**: SpecRename relates two meshes by a renumbering (mesh_renamed) without looking at matrices; RenameMatP carries sparse matrices over a signed renumbering, RenameDataP shows that stiffness, constraint matrix, bounds and lid rates are so related (contacts are matched by their rank), RenameRunP that each step of the solver keeps two such states related, RenameP puts them together.
* **C105 (order of the fibers)**: SpecOrder relates two mats (shuffled) fiber by fiber; OrderP matches the rows of the two networks as sets (C98), then the nodes of the two meshes by fiber and abscissa, and reads beams and contacts from these places; OrderRunP adds the heights (C97), the threshold and the solver (C104).
* **C106 (a mat turned over)**: SpecOver relates the fibers (overturned) and says when a pile goes through a fiber; OverP shows that linked fibers are those of the other mat with above and below exchanged, so a pile read backwards is a pile; heights, lid and floor follow from the thickest piles (C97).
* **C107 (a part of a mat)**: SpecPart says when a mesh contains another one that is not joined to the rest (mesh_within); PartMatP splits the sparse matrix of the whole into that of the part and entries that do not touch it, PartDataP shows it for stiffness, constraint matrix, bounds and lid rates, PartRunP shows by induction on the record of the whole that each of its states is on the record of the part: the closed rows of the part do not change between two of its own states, and the increment is the only solution.
* **C108 (fibers apart)**: SpecApart says when the fibers of a mat are among those of another one and connected to none of the others (set_apart). ApartP matches the rows of the two networks on these fibers (the lemmas of OrderP, stated for a relation between labels that need not be total), then the nodes of the two meshes by fiber and abscissa, which gives mesh_within; the runs follow by C107.
* **C109 (forces of two parts)**: SpecSum; SumP shows that the ranks of the contacts of the whole are those of the contacts of the two parts, each once, and sums the forces given by C107.
* **C110 (energies of two parts)**: SpecShare; ShareP reads the displacements of a part from those of the whole, shows that the stiffness matrix of the whole acts on them as the one of the part (stiff_in of PartDataP), and sums over the unknowns, which are those of the two parts, each once.
* **C111 (thresholds)**: SpecThreshold; ThresholdP reads Stack with a threshold as a filter of the rows of Stack without one; heights are those of C17 (not below half a thickness, centres of connected fibers at least half the sum of the thicknesses apart, every fiber carried).
* **C76, C77 (VTK mesh)**: the points of the VTK mesh with their fields; the copies of the periodic mode compared with the set of all images of the points in the window.
* **C54, C62, C70 (settings)**: a state machine of widgets with values and switches, exceptions as values.
* **C92, C93 (buttons)**: a state with the commands run; strings as in Coq, words and lines by induction on the characters.
* **C72-C74 (two computations)**: motions as turns, scalings and translations; connection of a pair characterised by the pair alone; comparison of stacks by induction along the labels.
* **C75 (units)**: a relation of scaled values (row factors and unknown factors) preserved by assembly and by every step; the increments of both runs agree by uniqueness of the solution.
* **C55, C63 (attributes)**: heap of dictionaries refined to a heap-free specification, induction on the program.

Per property: theorems (prefix `Cnn_`), and what is assumed or refuted.

| id | property | theorems | notes |
|---|---|---|---|
| C01 | Mat.check accepts exactly the documented tables | check_accepts, check_raises, check_never_false |  |
| C02 | Generated mats are always valid | generated_valid | assumes draws in [-1/2,1/2] and cos^2+sin^2 within 1e-6 of 1 |
| C03 | Mat is reproducible from its seed | reproducible |  |
| C04 | A checked mat has usable coordinates | checked_coordinates, heights_refuted, lengths_refuted | x, y, u, v, w are finite; refuted for z and for l (witnesses) |
| C05 | Net(mat) always yields a valid network | total, only_failures, valid, rows_numbered, rows_increasing, attributes | finite geometry (representability of checked tables is theorem finite_mats_representable) |
| C06 | Every fiber has exactly one pair of end nodes | end_nodes, end_abscissae |  |
| C07 | Connection nodes lie strictly inside both fibers | inside |  |
| C08 | Node coordinates are on the fiber axes | on_axes |  |
| C09 | Connection nodes are the nearest points of the two axes | nearest |  |
| C10 | Nodes of in-plane fibers coincide modulo the period | coincide |  |
| C11 | Non periodic networks contain exactly the crossings | crossings, parallel, slack_norm_refuted | needs orientation vectors not longer than 1; refuted without (witness within the tolerance of Mat.check) |
| C12 | Periodic networks contain exactly the periodic crossings | periodic_crossings | needs orientation vectors not longer than 1 |
| C13 | No periodic crossing is lost by removing duplicates | no_loss, one_image, long_fibers_refuted | loss for longer fibers shown by C13_long_fibers_refuted |
| C14 | In-plane networks do not depend on heights | heights | abscissae and coordinates equal as rational numbers |
| C15 | Net.check accepts exactly the documented networks | check_accepts, check_raises, check_never_false |  |
| C16 | The stacking program encodes non-penetration | total, feasible, weights |  |
| C17 | Stacking has a unique optimum computed by one upward sweep | optimum_exists, optimum_unique, sweep_optimal, networks_by_A |  |
| C18 | A stack is physically admissible and supported | total, heights, rows, pairs_refuted | linprog assumed to return an optimum of the program it is given; refuted for networks built with a pairs argument |
| C19 | Threshold keeps all end nodes and exactly the near connections | threshold |  |
| C20 | Stacking is idempotent | idempotent, idempotent_stack, threshold_refuted | linprog deterministic and optimal; refuted when restacking from a thresholded stack |
| C21 | Stack height bounds | top, uniform |  |
| C22 | Stack preserves the network it is given | same_rows, pairs_refuted | for Net(mat, periodic); the pairs case is refuted |
| C23 | Mesh nodes are the two sides of each connection | nodes |  |
| C24 | Mesh nodes are ordered and beams follow the fibers | order, beams_permute |  |
| C25 | Mesh constraints link the two sides of a connection | constraints |  |
| C26 | Mesh.check accepts exactly the well-formed meshes | check_accepts, check_raises, check_never_false |  |
| C27 | The mesh pipeline never fails | net, stack, framed, new_is_init, pairs_refuted | linprog optimal for the stack part; refuted for networks built with a pairs argument |
| C28 | Beams tile each fiber | net, stack, lengths_nonneg |  |
| C29 | The stiffness matrix is symmetric and couples only nodes of one fiber | total, symmetric, local |  |
| C30 | The stiffness matrix is positive semi-definite | finite, psd, concurrent_refuted, coupling_refuted | finite when no two neighbours of a fiber coincide; refuted for coupling > 1 and, for finiteness, when three fibers meet at one point |
| C31 | Rigid motions of a fiber store no energy | translations, kernel, kernel_coupled |  |
| C32 | Beam length rescaling stays within its bounds | lengths, lmin_refuted | a lone lmin is refuted to be a lower bound |
| C33 | Infinite tensile modulus gives infinite bending stiffness only | displacements, rotations, limit |  |
| C34 | The constraint system encodes admissibility in the slab | total, admissible, moved_lid, top |  |
| C35 | A stacked mesh starts admissible | start | linprog optimal |
| C36 | solve records a consistent history and respects itermax | total, history, lengths, itermax, default_packing | any linear solver; st_err2 is the square of the recorded error |
| C37 | solve never violates the constraints by more than the accepted residual | residual, exact, stacked | solver answers all finite, or all finite or all NaN under failures_detectable; C37_stacked assumes an optimal linprog |
| C38 | Recorded states are in mechanical equilibrium | displacements, all, load |  |
| C39 | Contact forces act only at contacts | contacts, persist |  |
| C40 | solve terminates | steps, bound |  |
| C41 | The lid only goes down and packing only increases | lid, packing |  |
| C42 | Contact forces balance on every fiber | fiber, total |  |
| C43 | Renumbering does not change the solution | same_results, increment | The whole recorded history is the same, value by value, for any two numberings, for every linear solver that is exact on systems with one solution; the increments solve the equations of the closed rows. Hypothesis: each visited system has one solution. The exact elimination used in the examples is proved to be such a solver. |
| C44 | A failed linear solve never enters the results | prefix, finite, zero_length_refuted, partly_nan_refuted | refuted for coinciding nodes and for partly NaN answers |
| C45 | Infinitely stiff fibers never rotate | rotation |  |
| C46 | Interpolation passes through the recorded states | linear, samples, ends, resample, all |  |
| C47 | Interpolation stays between neighbouring samples | neighbours, between, increasing, decreasing |  |
| C48 | Outside [0,1] the last sample is returned | last |  |
| C49 | Step interpolation returns the latest recorded state | step, single |  |
| C50 | Interpolated results are meaningful numbers | finite, single_refuted, unbounded_refuted | the two exceptions are refutations holding in every run |
| C51 | Rendering locates points between the right nodes | located, net, stack, nearest_exists, coincident_refuted | the tree is an oracle returning any nearest node; coinciding nodes are a refutation |
| C52 | Rendered fields interpolate nodal values | value, node, slope, between |  |
| C53 | Rendering reproduces rigid rotations | error, unit, refuted | exact error term; exact for unit elements, the general statement is refuted |
| C54 | Settings: what you set is what you get | last, untouched, accepts, failed, reassign, failed_refuted, theta_refuted | two refuted clauses: reassigning theta, rejected values |
| C55 | Wrapping a table shares its attributes, building does not | views, wrap, family, others, build, copy_refuted, empty_stack_refuted | heap semantics refines a heap-free one; two refuted readings |
| C56 | Assembling constraints only adds a thickness column | rows_kept, thickness, still_valid, twice |  |
| C57 | The stiffness matrix is the sum of the documented beam matrices | assembly |  |
| C58 | The documented sign conditions hold | downward_refuted, pushing_refuted | both sign conditions are refuted |
| C59 | Interpolated states are admissible and in equilibrium | admissible, equilibrium |  |
| C60 | Lid height and stretch factor between states | lid, stretch, product, ratio_refuted | rlambda(t) = Z(0)/Z(t) is refuted |
| C61 | Rendered curvature of a constant curvature bend | value, unit, refuted | exact for unit elements, the general statement is refuted |
| C62 | The Settings constructor keeps its arguments | reads, total, given, defaults, infinity_refuted, thickness_refuted | refuted for other infinities than np.inf and for zero thickness |
| C63 | Attributes of built tables | new, net, mesh, stack, stack_refuted |  |
| C64 | The generated table as a function of the random draws | draws, angles, flat, raises | the generator is an oracle; C64_angles assumes draws in [-1/2,1/2] |
| C65 | Networks of fibers of any orientation | connections, feet, cross_from_above_refuted | lengths at most the box size in periodic mode; crossing seen from above is refuted |
| C66 | Recorded contact masks | first_mask, next_mask, new_contact, late, same_state_refuted | the reading "mask of its own state" is refuted; hypotheses on the solver as in C37 |
| C67 | Recorded bounds | rows, region |  |
| C68 | Results between recorded states | fields, bounds, lid, mask, mask_single, mask_outside | rows of H without bound are NaN between states (C50) |
| C69 | Points of fibers with coinciding nodes, or with none | cases, value, unknown, beyond | the tree is an oracle returning any nearest node |
| C70 | Switches of the Settings widgets | proposed, off, back, others |  |
| C71 | Contact forces of a stack | forces, certified, exists, floor, load, load_bound, unique_refuted | linprog is an oracle: the marginals are a dual optimum of equal value; uniqueness of the forces is refuted |
| C72 | Networks follow the motions of the fibers | joined, linked, short |  |
| C73 | The periodic network contains the plain one | contains |  |
| C74 | Comparison of stacks | above, same, order_refuted | linprog optimal; lengths at most the box size in periodic mode; independence of the order is refuted |
| C75 | The results do not depend on the units | seen, results, units, tol_refuted | exact linear solvers and regular systems are hypotheses; with an unscaled tolerance the claim is refuted |
| C76 | Points of the VTK mesh | net, stack, total, points, lengths | cylinder points, their placement and the tree are oracles; curvature at the last node of an element is left open |
| C77 | Periodic pictures | tiling, reach, refuted | refuted for fibers longer than the period |
| C78 | The picture of the system and the error printed with it | total, colours, error, contacts, undrawn_refuted, open_refuted | errors are compared as squares; without a clear cut between tol and the tolerances of isclose the claim on contacts is refuted both ways |
| C79 | The main script goes to its end and exports the last recorded state | read, total, fibers, shown, balance, fiber, admissible, seeded, empty, samples_refuted | the pictures shown and the file written are not modelled; with the default error tolerance the linear solver is assumed to give numbers |
| C80 | The energy stored is the work of the lid | work, contacts, direct, direct_contacts | for errtol = 0; the lid force is taken linear between recorded states, as the solver interpolates it |
| C81 | States without pulling contacts minimise the energy | minimum, unique, grows, pulling_refuted, direct | for errtol = 0; refuted when a contact pulls |
| C82 | The pictures of a mesh show the beams, the contacts and the ends | total, beams, length, contacts, stack, marks, recorded, between, sizes, positions, connections_refuted | colour maps, axes and the 3D view are not modelled; deformed pictures for errtol = 0 |
| C83 | The contacts drawn with a stack are those that carry | empty, drawn, plane_refuted | for fibers in the plane (refuted otherwise); the marginals are assumed to be an optimum of the dual program |
| C84 | The notebook, from its settings to the exported mesh | read, only, call, total, runs, contacts, script, shown, seeded, consistent, empty, settings_refuted, unseeded_refuted | psi = 0 as in the notebook; linear program, marginals, linear solver, cylinder and tree are oracles; display, colours and load interpolation are not modelled; refuted: n = 0, and without a seed |
| C85 | From any mat to the exported mesh | total, fibers, parts, shown, admissible | linear program, linear solver, cylinder and tree are oracles; non-overlap for errtol = 0 and fibers in the plane |
| C86 | The names of the package, and where the scripts stop | names, square, logo, meant, scripts_refuted | imports that succeed outside the package (numpy, pandas, ...) are taken as given; display and saving are not modelled; refuted: the scripts as written |
| C87 | The fibers of the logo lie on its letters | fibers, seeded, reused | the mask is transcribed bit by bit; on the right and upper borders of the frame (x = 29, y = 6) the cell is beyond the letters and unset |
| C88 | The compression goes on until a column has no void left | strict, regular, end, steps, admissible, contacts, balance, reaches, stacked, coupling_refuted, threshold_refuted | linear solvers are oracles: right when the system has one solution, else numbers or NaN throughout; refuted for coupling = 1 and for thresholds smaller than the thickness |
| C89 | Neither the numbering, nor the linear solver, nor the units are seen in the results | seen, numbering, units | conditions as in C88 instead of the regular systems assumed in C43 and C75 |
| C90 | The main script packs the fibers as asked | errtol, total, admissible, end, reaches, numbering | psi = 0 and the options of main.py; linear program, linear solver, cylinder and tree are oracles |
| C91 | The fibers drawn, and the colours that show what they carry | lines, nodes, colours, notebook, empty, unique_refuted | a colour is the number given to the colour map; the map itself, the axes and the view are not modelled; refuted: independence of the forces that linprog returns |
| C92 | The button of the display mode | modes, described, outside | the commands are those given to run_cell; what IPython does with them is not modelled |
| C93 | The button that installs packages | command, label, table, versions, names, script, session, shown_refuted, lines_refuted, blanks_refuted | the shell is an oracle; the tags of the table are not modelled; refuted: names with blanks, versions on several lines, Installed without a table |
| C94 | The mat stiffens as it is compressed | grows, pushes, energy, stiffens, spring, results, direct, direct_stiffens, direct_spring, coupling_refuted, contacts_refuted | the force on the lid is the sum of the forces of the lid contacts; hypotheses of C80 for exact steps, of C88 for direct solvers; refuted: single contact forces, coupling above 1 |
| C95 | Packing with a direct solver, from any mat, in the scripts and in the notebook | total, errtol, packs, main, square, logo, book, book_packs, cell7 | square.py and logo.py as written stop (C86): proved for the scripts with the name solve; linear program, linear solver, cylinder and tree are oracles |
| C96 | The targets of the solver only tell when to stop | raise, prefix, stop, results, errors, error, bound, direct, resampled_refuted | errors are compared as squares; reliable solvers for the functions of the pseudo-time; refuted: resampled functions |
| C97 | The heights of a stack are the thicknesses of the thickest piles | piles, floor, lid, above, same, reorder | heights compared as rationals; the linear program is an oracle that returns an optimum; a turn of a periodic box is a multiple of a quarter |
| C98 | Images and orientation of the fibers do not matter | linked, joined, long_refuted | exact rational arithmetic: the comparisons of the code are strict, rounding could change limit cases; refuted: fibers longer than the box |
| C99 | The stacking test of the project passes for every draw, and only for right heights | passes, raises, any, detects, flat, draws_refuted | the values drawn by np.random.normal are arguments; the other tests, which compare tables with literals, are run on the model in Conform.v; refuted: every draw |
| C100 | A mat moved in its plane is compressed in the same way | stack, ready, solve, pack | for a direct linear solver and mats meeting the conditions of C95; exact rational arithmetic |
| C101 | Arguments left out stand for empty objects, and seed the generator | filled, given, generator, session, draws, empty, solve, floor, seed_refuted, network_refuted | only the state of the generator is followed, not the sharing of attributes (C55, C63); solve up to its interpolation; refuted: generator left alone, Stack(mat) = Stack(mat, Net(mat)) |
| C102 | The class of a table tells the constructors whether to wrap or to build | mat, wraps, builds, mesh, keywords, copies, rewrapped, again, marked, object, copy_refuted, stack_refuted | a copy has class DataFrame, as pandas does without _constructor; attributes are followed as values, sharing is C55/C63; refuted: copy of a mat, Stack(net) |
| C103 | Interpolated values have the type of the samples | floats, samples, between, increasing, step, booleans, outside, nearest_refuted | exact rational arithmetic; NaN or an infinity converted to an integer is left undefined; refuted: nearest integer |
| C104 | Names and directions do not matter to the compression | records, calls | exact rational arithmetic; contacts keep which of the two nodes has the lower number, as Stack and Mesh give it |
| C105 | The order of the fibers and their directions do not matter to the compression | mesh, solve, order_refuted, ties_refuted | exact rational arithmetic; flat fibers; in a periodic box directions are at most unit vectors and fibers at most half as long as the box; refuted: exchanged connected fibers, coinciding nodes |
| C106 | A mat turned over has a stack of the same height | lid, heights, floor, places_refuted | overturned fibers: SpecOver; the piles of one mat are those of the other read from above (OverP) |
| C107 | A part of a mat that touches nothing else is compressed as if it were alone | records, calls, ends, faces, bounds_refuted | exact rational arithmetic; contact tolerance 0; C107_records assumes that the systems have one solution, C107_calls and C107_ends derive it for direct solvers (C88) |
| C108 | Fibers that touch none of the others are stacked and compressed as if they were alone | heights, mesh, solve, above_refuted | exact rational arithmetic; contact tolerance 0; heights by C97, rows of the networks pairwise by C98, runs by C107 |
| C109 | The forces on two parts that touch nothing else add up | parts, mats | exact rational arithmetic; contact tolerance 0; C109_parts from meshes (C107), C109_mats from mats (C108) |
| C110 | The energies of two parts that touch nothing else add up | parts, mats, work, more | exact rational arithmetic; contact tolerance 0; C110_parts from meshes (C107), C110_mats from mats (C108), C110_work with C80 and C110_more with C30 and C94, both for finite moduli |
| C111 | Thresholds of Stack compared: a larger one keeps more, a large one everything, one below the thicknesses no contact | nested, large, small, supports, mesh, lid, supports_refuted | exact rational arithmetic; C111_lid, C111_large, C111_small and C111_supports for networks of all pairs (C17) and horizontal fibers; C111_nested and C111_mesh for any network and any linear programming solver |


Not expressible in this model (left out of the properties): how lines are drawn on screen (matplotlib, pyvista windows),
VTK file contents, progress bars and other output, running time, text of messages, rounding errors.

## 4. Hypotheses on oracles

| oracle | hypotheses used |
|---|---|
| generator | none, or draws in [-1/2, 1/2] (C02, C64_angles) |
| cos, sin | cos^2 + sin^2 within 1e-6 of 1 (C02) |
| `linprog` | returns an optimum of the program it is given (`solved`; scipy raises or reports failure otherwise); for C71, C83 and C84 its marginals are a dual optimum |
| sparse solver | none for C36, C40, C44; `reliable` (a recorded step solves its system up to the recorded error) and `errors_below_tol` where stated; exact on systems with one solution for C43, C75 |
| `reverse_cuthill_mckee` | returns each index once (C79) |
| `KDTree` | returns a nearest node, any of them in a tie |
| pyvista | the points of `Cylinder` have axial coordinates in [-1/2, 1/2]; how `vtk_fiber` scales, turns and moves them is arbitrary (C76); it moves them by less than half a period from the centre of the fiber (C77_reach) |

## 5. Simplifications of the models

* Tables carry the columns the code reads. Extra columns and extra attributes are carried along or ignored as the code does.
* `qmat`: a mat whose geometry is finite and whose labels are 0..n-1, as `Mat.check` requires
  (theorem `finite_mats_representable`). Tables with infinite or NaN entries are modelled for the checks.
* The networks' least squares problem is solved by Cramer's rule on the 2x2 normal equations, as the code does.
* Sparse matrices are coordinate lists whose repeated entries are summed.
* The solver's system is modelled on the real numbers: `np.real` is the identity.
* Messages, warnings and progress bars are dropped.

## 6. Trusted base

* Coq's kernel and its virtual machine (`vm_compute` is used in examples and in refutation witnesses), `coqc` 8.16.1.
* `Print Assumptions` prints "Closed under the global context" for every property theorem: no axiom is used.
  (The files loaded contain the module parameters of `Coq.ssr.ssrunder`, which `coqchk` lists; no theorem depends on them.)
* Fidelity of the models to the code: each definition cites file and lines of `/repo`; nothing was run.
* The documented behaviour of the numpy/pandas/scipy primitives as modelled in `ListX.v`, `Frames.v`, `InterpM.v`, `RenderM.v`.

Modelled: `mat.py` (init, check, attrs), `net.py` (Net and Stack: init, check, constraint, solve, the loads of the
script), `mesh.py` (init, check), `model.py` (stiffness, constraint, the matrix, colours and error of plot_system), `solver.py` (solve), `interpolation.py`, the node location,
the fields, the points and the periodic copies of `render.py`, `widgets.py` (Settings), the top-level `widgets.py` (PipButton, MatplotlibButton), `main.py` (the computations of the script), the lines drawn by the scripts at the end of `mat.py`, `net.py`, `mesh.py` and `solver.py`, the colours of the fibers at the end of `net.py`, the computations of the cells 7, 21, 24, 28, 36, 40 and 43 of `jupyter-notebook.ipynb`, the computations of `scripts/square.py` and `scripts/logo.py`, the names of the package (`__init__.py` and the imports of its files), the stacking tests of `test/test_net.py`.
Not modelled: cells of the VTK mesh and the points that clipping adds where it cuts a cell (pyvista), axes, views and colour maps of the pictures, the widgets' display.

## 7. Testing the theorems

`seeded/LOG.jsonl` lists edits of the model in scratch copies (one realistic bug each), the claim it breaks, the
theorems that stopped compiling and the theorems tightened after a survivor.
