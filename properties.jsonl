{"id": "C01", "title": "Mat.check accepts exactly the documented tables", "statement": "Mat.check(df) returns True if and only if skip_check is set, or: all eleven columns are present, attrs has n and size, n equals the number of rows, the row labels are 0..n-1 in order, every l,b,h is > 0, every x,y lies in [-size/2,size/2], every (u,v,w) has norm within 1.001e-5 of 1, and every G,E is > 0. Otherwise it raises, and the class of the exception is the documented one for the first violated condition. NaN in any checked entry is a violation.", "quantifier": "every table (any rows, labels, missing columns, attributes, entries finite, infinite or NaN)", "why_tests_cant": "Tests build one good and one empty table; they cannot enumerate all tables, nor the absence of a bad accepted table.", "anchors": ["src/fibermat/mat.py:Mat.check"]}
{"id": "C02", "title": "Generated mats are always valid", "statement": "For every n >= 0, positive length/width/thickness/shear/tensile (tensile may be infinite), size >= 0 and every random stream, Mat(n, ...) does not raise, has exactly n rows labelled 0..n-1 with the requested dimensions and moduli, has every x,y,z inside the box, and its z column is non-decreasing.", "quantifier": "every n, every parameter value, every sequence produced by the random generator, any cos/sin whose square sum is accurate to 1e-6", "why_tests_cant": "A test only sees the streams of the seeds it picks.", "anchors": ["src/fibermat/mat.py:Mat.init", "src/fibermat/mat.py:Mat.__init__", "src/fibermat/mat.py:Mat.check"]}
{"id": "C03", "title": "Mat is reproducible from its seed", "statement": "With an integer seed, Mat(...) depends only on its arguments: the table returned, and the state in which it leaves the global random generator, are the same whatever random numbers were drawn before.", "quantifier": "every argument tuple, every prior state of the global random generator and every history of calls", "why_tests_cant": "Histories of draws are unbounded; a test repeats a couple of them.", "anchors": ["src/fibermat/mat.py:Mat.init"]}
{"id": "C04", "title": "A checked mat has usable coordinates", "statement": "In a mat accepted by Mat.check (finite box size) the positions x, y and the orientation u, v, w of every fiber are finite numbers. (Not so for z and l: the heights are never looked at, and an infinite length is accepted.)", "quantifier": "every table accepted by Mat.check", "why_tests_cant": "An absence claim over all accepted tables.", "anchors": ["src/fibermat/mat.py:Mat.check", "src/fibermat/net.py:Net.init"]}
{"id": "C05", "title": "Net(mat) always yields a valid network", "statement": "For every valid mat with finite geometry, periodic or not, and every in-range list of candidate pairs, Net(mat) does not raise: its rows are numbered 0..m-1, fiber labels lie in [0,n), A <= B in each row, no (A,B) pair appears twice, rows are in increasing (A,B) order, and Net.check returns True on it.", "quantifier": "every valid mat, both periodic modes, every pairs argument", "why_tests_cant": "Tests fix one seed and 10 fibers.", "anchors": ["src/fibermat/net.py:Net.init", "src/fibermat/net.py:Net.check"]}
{"id": "C06", "title": "Every fiber has exactly one pair of end nodes", "statement": "In Net(mat), for each fiber i there is exactly one row with A = B = i and its abscissae are +l/2 and -l/2, in periodic and non periodic mode, even when the fiber's own periodic images are candidates.", "quantifier": "every valid mat, both periodic modes, every fiber", "why_tests_cant": "Whether an image of the fiber competes for the same row depends on geometry; tests see a few cases.", "anchors": ["src/fibermat/net.py:Net.init"]}
{"id": "C07", "title": "Connection nodes lie strictly inside both fibers", "statement": "In every row of Net(mat) with A < B, |sA| < lA/2 and |sB| < lB/2.", "quantifier": "every valid mat, both modes, every pairs argument, every row", "why_tests_cant": "Universal over geometry.", "anchors": ["src/fibermat/net.py:Net.init"]}
{"id": "C08", "title": "Node coordinates are on the fiber axes", "statement": "In every row of Net(mat), (xA,yA,zA) is the centre of fiber A plus sA times its orientation vector, and (xB,yB,zB) likewise for B: images never leak into the reported coordinates.", "quantifier": "every valid mat, both modes, every row", "why_tests_cant": "Universal over geometry and over which periodic image produced the row.", "anchors": ["src/fibermat/net.py:Net.init"]}
{"id": "C09", "title": "Connection nodes are the nearest points of the two axes", "statement": "For every row with A < B there is a translation of fiber B by whole periods (zero when not periodic) such that the two nodes of the row minimise the distance between the two infinite axes, and they are the only minimisers.", "quantifier": "every valid mat (any out-of-plane angle), both modes, every row, every competing pair of points", "why_tests_cant": "Minimality is over a continuum of competing points.", "anchors": ["src/fibermat/net.py:Net.init"]}
{"id": "C10", "title": "Nodes of in-plane fibers coincide modulo the period", "statement": "If both fibers have w = 0 then in each row with A < B the two nodes have the same x and y up to an integer multiple of size (exactly the same when not periodic), and zA, zB are the z of the two fibers.", "quantifier": "every valid mat with in-plane fibers, both modes, every row", "why_tests_cant": "Universal over geometry.", "anchors": ["src/fibermat/net.py:Net.init"]}
{"id": "C11", "title": "Non periodic networks contain exactly the crossings", "statement": "For in-plane fibers, Net(mat, periodic=False) has a row (A,B), A<B, if and only if the open segments of the two fibers cross transversally in the plane; the neighbourhood pre-filter never drops a crossing and parallel fibers are never connected.", "quantifier": "every mat of in-plane fibers whose orientation vectors are not longer than 1, every pair of fibers", "why_tests_cant": "The pre-filter could lose crossings only for rare configurations that sampling misses.", "anchors": ["src/fibermat/net.py:Net.init"]}
{"id": "C12", "title": "Periodic networks contain exactly the periodic crossings", "statement": "For in-plane fibers no longer than the box, Net(mat, periodic=True) has a row (A,B), A<B, if and only if fiber A crosses some translate of fiber B by integer multiples of the box size. In particular duplicating only the left, front and corner fibers is enough.", "quantifier": "every mat of in-plane fibers with orientation vectors not longer than 1 and max length <= size, every pair of fibers, every integer translation", "why_tests_cant": "Corner cases of the duplication (which images are created) are measure-small and missed by sampling.", "anchors": ["src/fibermat/net.py:Net.init"]}
{"id": "C13", "title": "No periodic crossing is lost by removing duplicates", "statement": "If twice the largest fiber length is at most the box size, two fibers cross in at most one relative periodic image, so keeping one row per pair of fibers loses nothing; for longer fibers a crossing can be lost.", "quantifier": "every mat of in-plane fibers, every pair, every two translations", "why_tests_cant": "Universal over geometry; the default (25 mm in 50 mm) is exactly at the limit.", "anchors": ["src/fibermat/net.py:Net.init"]}
{"id": "C14", "title": "In-plane networks do not depend on heights", "statement": "For in-plane fibers, changing the z column of the mat changes only zA and zB in Net(mat): the connections, abscissae, x and y are unchanged.", "quantifier": "every mat with w = 0, every replacement of the z column, both modes", "why_tests_cant": "Quantifies over pairs of runs.", "anchors": ["src/fibermat/net.py:Net.init", "src/fibermat/net.py:Stack.init"]}
{"id": "C15", "title": "Net.check accepts exactly the documented networks", "statement": "Net.check(df) returns True iff skip_check is set, or: all ten columns present, attrs has n,size,periodic, row labels are 0..m-1 in order, A and B are integers in [0,n), A<=B in each row and no two rows agree on (A,B,sA,sB). Otherwise it raises, with the documented class (a length mismatch in the label test is a broadcasting error).", "quantifier": "every table", "why_tests_cant": "Universal over tables.", "anchors": ["src/fibermat/net.py:Net.check"]}
{"id": "C16", "title": "The stacking program encodes non-penetration", "statement": "For the C, f, H, h returned by Stack.constraint(mat, net): C z <= H and z >= h/2 if and only if every fiber is above the floor and every connected pair A<B satisfies zB - zA >= (hA+hB)/2; f is a strictly positive weight per fiber.", "quantifier": "every valid mat and net, every candidate vector z", "why_tests_cant": "Universal over z and over networks.", "anchors": ["src/fibermat/net.py:Stack.constraint"]}
{"id": "C17", "title": "Stacking has a unique optimum computed by one upward sweep", "statement": "The linear program solved by Stack.solve is feasible and bounded, has exactly one optimal solution, and it is the one obtained by starting at h/2 and processing rows in order with z[B] = max(z[B], z[A] + (hA+hB)/2).", "quantifier": "every valid mat and every network whose rows are in (A,B) order, every optimal answer of the LP solver", "why_tests_cant": "The repository test compares on random samples of 100 fibers; uniqueness is over all competing vectors.", "anchors": ["src/fibermat/net.py:Stack.solve", "src/fibermat/net.py:Stack.constraint", "test/test_net.py:test_stack_finite"]}
{"id": "C18", "title": "A stack is physically admissible and supported", "statement": "After Stack(mat, net) with in-plane fibers: only the z column of mat has changed; each fiber is at or above the floor; in every row of the stack with A<B, zB - zA >= (hA+hB)/2; and each fiber either lies on the floor or touches a connected lower fiber exactly.", "quantifier": "every valid in-plane mat, both periodic modes, every threshold, every optimal LP answer", "why_tests_cant": "Universal over configurations and LP answers.", "anchors": ["src/fibermat/net.py:Stack.init"]}
{"id": "C19", "title": "Threshold keeps all end nodes and exactly the near connections", "statement": "With a threshold, the rows of the stack are, in order and renumbered, exactly the rows of the full stack with A = B or |zB - zA| <= threshold; without threshold nothing is removed.", "quantifier": "every valid mat, every threshold value", "why_tests_cant": "Universal over configurations and thresholds.", "anchors": ["src/fibermat/net.py:Stack.init"]}
{"id": "C20", "title": "Stacking is idempotent", "statement": "For in-plane fibers, stacking an already stacked mat again changes neither the heights nor the stack.", "quantifier": "every valid in-plane mat, both modes", "why_tests_cant": "Relates two runs for all inputs.", "anchors": ["src/fibermat/net.py:Stack.init"]}
{"id": "C21", "title": "Stack height bounds", "statement": "After stacking, every fiber top z + h/2 is at most the sum of the thicknesses of the fibers with label not larger; with a uniform thickness h every z is h/2 plus a whole number of thicknesses.", "quantifier": "every valid mat and network", "why_tests_cant": "Universal over networks (longest chains).", "anchors": ["src/fibermat/net.py:Stack.init", "src/fibermat/net.py:Stack.solve"]}
{"id": "C22", "title": "Stack preserves the network it is given", "statement": "For in-plane fibers, Stack(mat, net) has the same connections (A,B,sA,sB) as net. True when net = Net(mat, periodic=p); false when net was built with a pairs argument, because Stack rebuilds the network from scratch.", "quantifier": "every valid in-plane mat, every net", "why_tests_cant": "Universal over the nets passed in.", "anchors": ["src/fibermat/net.py:Stack.init"]}
{"id": "C23", "title": "Mesh nodes are the two sides of each connection", "statement": "Mesh(net) has exactly two nodes per row of net: there is a one-to-one numbering of (row, side) by nodes under which each node carries the fiber label, abscissa and coordinates of its side.", "quantifier": "every net accepted by Net.check", "why_tests_cant": "Universal over networks, including ties of abscissae.", "anchors": ["src/fibermat/mesh.py:Mesh.init"]}
{"id": "C24", "title": "Mesh nodes are ordered and beams follow the fibers", "statement": "In Mesh(net) nodes are numbered 0.. in non-decreasing (fiber, s) order; beam of a node is the next node of the same fiber, and the beam of the last node of a fiber is its first node. In particular beam is a permutation of the nodes.", "quantifier": "every net accepted by Net.check", "why_tests_cant": "Universal over networks.", "anchors": ["src/fibermat/mesh.py:Mesh.init"]}
{"id": "C25", "title": "Mesh constraints link the two sides of a connection", "statement": "In Mesh(net), the constraint of a node is the node of the other side of its row when the two fibers differ, and the node itself when they are the same; constraint is an involution.", "quantifier": "every net accepted by Net.check", "why_tests_cant": "Universal over networks.", "anchors": ["src/fibermat/mesh.py:Mesh.init"]}
{"id": "C26", "title": "Mesh.check accepts exactly the well-formed meshes", "statement": "Mesh.check(df) returns True iff skip_check is set or the table is a well-formed mesh: columns, attributes, labels 0..N-1 in order, integer labels in range, nodes ordered by (fiber, s), beam the cyclic successor inside each fiber, constraint an involution, first and last node of each fiber constrained to themselves.", "quantifier": "every table", "why_tests_cant": "Universal over tables.", "anchors": ["src/fibermat/mesh.py:Mesh.check"]}
{"id": "C27", "title": "The mesh pipeline never fails", "statement": "Mesh(Net(mat)) and Mesh(Stack(mat, Net(mat), threshold)) pass Mesh.check for every valid mat; with a custom pairs argument that omits a fiber's self pair the mesh can be rejected.", "quantifier": "every valid mat, both modes, every threshold, every optimal LP answer", "why_tests_cant": "Universal over configurations.", "anchors": ["src/fibermat/mesh.py:Mesh.init", "src/fibermat/mesh.py:Mesh.check", "src/fibermat/net.py:Net.init", "src/fibermat/net.py:Stack.init"]}
{"id": "C28", "title": "Beams tile each fiber", "statement": "In Mesh(Net(mat)) each fiber has at least two nodes, its first and last nodes are at -l/2 and +l/2, and the lengths of its beam elements sum to l.", "quantifier": "every valid mat, both modes, every fiber", "why_tests_cant": "Universal over configurations.", "anchors": ["src/fibermat/mesh.py:Mesh.init", "src/fibermat/model.py:stiffness"]}
{"id": "C29", "title": "The stiffness matrix is symmetric and couples only nodes of one fiber", "statement": "K returned by stiffness is symmetric, square of size 2 x nodes, and every non zero entry couples degrees of freedom of two nodes of the same fiber that are equal or adjacent along it.", "quantifier": "every valid mat and mesh, every lmin, lmax, coupling, finite or infinite moduli", "why_tests_cant": "Universal over meshes.", "anchors": ["src/fibermat/model.py:stiffness"]}
{"id": "C30", "title": "The stiffness matrix is positive semi-definite", "statement": "With finite moduli and positive element lengths, u.K u >= 0 for every displacement vector u whenever |coupling| <= 1; for coupling > 1 it is false.", "quantifier": "every valid mat and mesh, every coupling, every displacement vector", "why_tests_cant": "Semi-definiteness quantifies over all vectors and assemblies.", "anchors": ["src/fibermat/model.py:stiffness"]}
{"id": "C31", "title": "Rigid motions of a fiber store no energy", "statement": "Lifting all nodes of a fiber by the same amount is in the kernel of K for every coupling and rescaling (with finite moduli); with coupling = 1 and no rescaling, so is a rigid rotation (u = phi s, theta = phi) of a fiber; and with 0 <= coupling <= 1 only motions rigid on each fiber have zero energy.", "quantifier": "every valid mat and mesh, every fiber, every vector", "why_tests_cant": "Kernel statements quantify over all vectors.", "anchors": ["src/fibermat/model.py:stiffness"]}
{"id": "C32", "title": "Beam length rescaling stays within its bounds", "statement": "In stiffness, when the lower bound in force (lmin or the smallest length) does not exceed the upper one (lmax or the largest length), the lengths used lie between them and keep the order of the actual lengths; they are the actual lengths when no bound is given. A lone lmin is not a lower bound in general: it is silently ignored when all elements have the same length.", "quantifier": "every multiset of element lengths, every lmin and lmax", "why_tests_cant": "Universal over lengths and bounds.", "anchors": ["src/fibermat/model.py:stiffness"]}
{"id": "C33", "title": "Infinite tensile modulus gives infinite bending stiffness only", "statement": "With E = inf, the entries of K coupling vertical displacements are finite and equal to their E -> inf limit while the diagonal rotation entries are +inf.", "quantifier": "every valid mat and mesh", "why_tests_cant": "Universal over meshes.", "anchors": ["src/fibermat/model.py:stiffness"]}
{"id": "C34", "title": "The constraint system encodes admissibility in the slab", "statement": "For C, H from constraint(mat, mesh): C u <= H if and only if in the deformed mesh every node is at least h/2 above the floor and h/2 below the lid Z and every connected pair satisfies the non-penetration distance (h1+h2)/2 in node order; the rows for end nodes are never active.", "quantifier": "every mesh accepted by Mesh.check with positive thicknesses, every displacement vector u", "why_tests_cant": "Universal over u.", "anchors": ["src/fibermat/model.py:constraint"]}
{"id": "C35", "title": "A stacked mesh starts admissible", "statement": "For the mesh of a stack of in-plane fibers, all entries of H are >= 0, so u = 0 satisfies C u <= H.", "quantifier": "every valid in-plane mat, both modes, every threshold, every optimal LP answer", "why_tests_cant": "Universal over configurations.", "anchors": ["src/fibermat/model.py:constraint", "src/fibermat/net.py:Stack.init", "src/fibermat/mesh.py:Mesh.init"]}
{"id": "C36", "title": "solve records a consistent history and respects itermax", "statement": "solve performs at most itermax steps; it records one state per step plus the initial one for each of u,f,F,H,Z,rlambda,mask,err; the initial state is u=f=0, Z the top of the mesh, rlambda 1; rlambda is Z0/Z at every state; no step is made once rlambda >= packing.", "quantifier": "every mat, mesh, packing, itermax, tolerance and every linear solver", "why_tests_cant": "Universal over solver answers and run lengths.", "anchors": ["src/fibermat/solver.py:solve"]}
{"id": "C37", "title": "solve never violates the constraints by more than the accepted residual", "statement": "If the initial configuration is admissible then at every recorded state C u <= H up to errtol times the total lid displacement so far; in particular exactly when errtol = 0.", "quantifier": "every mesh, every linear solver whose answers are all finite (or, when beam elements have positive lengths and finite shear moduli and the accepted errors stay below tol, all finite or all NaN), every number of steps", "why_tests_cant": "Holds along unbounded runs with an arbitrary solver.", "anchors": ["src/fibermat/solver.py:solve"]}
{"id": "C38", "title": "Recorded states are in mechanical equilibrium", "statement": "F stays zero, and at every recorded state such that errtol times the lid displacement so far does not exceed tol, |K u + C^T f| <= errtol times that displacement on every displacement row (and on the rotation rows when moduli are finite); exactly zero when errtol = 0, at every state.", "quantifier": "every mesh with positive element lengths, every linear solver whose answers are all finite or all NaN, every number of steps", "why_tests_cant": "Unbounded runs.", "anchors": ["src/fibermat/solver.py:solve"]}
{"id": "C39", "title": "Contact forces act only at contacts", "statement": "When errtol = 0, a constraint that has been active stays active with an unchanged gap, and a non zero force f_i implies that constraint i has a gap of at most tol in that state.", "quantifier": "every mesh, every linear solver whose answers are all finite (or all NaN, under the conditions of C37), every state of every run", "why_tests_cant": "Unbounded runs.", "anchors": ["src/fibermat/solver.py:solve"]}
{"id": "C40", "title": "solve terminates", "statement": "Each step activates at least one new constraint that stays active, as long as the accepted errors stay below tol (always when errtol = 0), so the number of steps is at most the number of rows of C, whatever itermax.", "quantifier": "every mesh, packing, itermax and linear solver whose answers are all finite (or all NaN, under the conditions of C37)", "why_tests_cant": "Termination is over unbounded runs.", "anchors": ["src/fibermat/solver.py:solve"]}
{"id": "C41", "title": "The lid only goes down and packing only increases", "statement": "For tol, errtol >= 0, Z strictly decreases at each step and, while Z stays positive, rlambda strictly increases; for admissible runs Z never gets below the largest thickness, so packing never exceeds Z0 / max h (errtol = 0).", "quantifier": "every run with answers all finite (or all NaN, under the conditions of C37)", "why_tests_cant": "Unbounded runs.", "anchors": ["src/fibermat/solver.py:solve"]}
{"id": "C42", "title": "Contact forces balance on every fiber", "statement": "At every recorded state the vertical contact forces (f C) sum to zero over the nodes of each fiber, up to errtol times the lid displacement per node; hence the total force on the floor equals the total force on the lid up to the same error; exactly when errtol = 0.", "quantifier": "every mesh with positive element lengths, finite or infinite tensile moduli, every run, every fiber", "why_tests_cant": "Universal over runs.", "anchors": ["src/fibermat/solver.py:solve", "src/fibermat/model.py:stiffness", "src/fibermat/model.py:constraint"]}
{"id": "C43", "title": "Renumbering does not change the solution", "statement": "The increment computed with a permutation perm solves the same reduced system as without it, so if that system has one solution, an exact linear solver gives the same results for every perm.", "quantifier": "every permutation, every exact linear solver", "why_tests_cant": "n! permutations.", "anchors": ["src/fibermat/solver.py:solve"]}
{"id": "C44", "title": "A failed linear solve never enters the results", "statement": "If the linear solver returns NaN everywhere in some steps (singular matrix), the loop stops there before updating anything: the recorded states are a prefix of those of the solver without failures, and are finite. (False when two neighbouring nodes coincide, and for answers that are only partly NaN.)", "quantifier": "every mesh with positive element lengths and finite shear moduli, every solver and every pattern of failures", "why_tests_cant": "The state at which a solver fails is arbitrary.", "anchors": ["src/fibermat/solver.py:solve"]}
{"id": "C45", "title": "Infinitely stiff fibers never rotate", "statement": "With infinite tensile modulus the rotations of the nodes stay exactly zero in every recorded state.", "quantifier": "every mesh, every node of a fiber with E = inf, every run with answers all finite (or all NaN, under the conditions of C37)", "why_tests_cant": "Unbounded runs with inf/NaN arithmetic.", "anchors": ["src/fibermat/solver.py:solve", "src/fibermat/model.py:stiffness"]}
{"id": "C46", "title": "Interpolation passes through the recorded states", "statement": "Interpolate(y) evaluated at (k+a)/(N-1) is (1-a) y[k] + a y[k+1] for N >= 2 samples, hence y[k] at k/(N-1); called without parameter it returns the samples; after resampling with size >= 2 it still gives the first and last sample at 0 and 1 and the unresampled value at the new samples.", "quantifier": "every list of at least two finite samples, every k, every size >= 2", "why_tests_cant": "Universal over lists.", "anchors": ["src/fibermat/interpolation.py:Interpolate.__init__", "src/fibermat/interpolation.py:Interpolate.__call__"]}
{"id": "C47", "title": "Interpolation stays between neighbouring samples", "statement": "For t in [0,1] the interpolated value lies between the two neighbouring samples; with or without resampling, the values stay between the smallest and the largest sample and monotone samples give a monotone function.", "quantifier": "every list of finite samples, every t", "why_tests_cant": "Continuum of t.", "anchors": ["src/fibermat/interpolation.py:Interpolate"]}
{"id": "C48", "title": "Outside [0,1] the last sample is returned", "statement": "For t < 0 and for t > 1 alike, Interpolate returns the last sample.", "quantifier": "every list, every t outside [0,1]", "why_tests_cant": "Continuum of t.", "anchors": ["src/fibermat/interpolation.py:Interpolate.__init__"]}
{"id": "C49", "title": "Step interpolation returns the latest recorded state", "statement": "With kind='previous', the value at t is y[floor(t (N-1))] for t in [0,1].", "quantifier": "every list, every t in [0,1]", "why_tests_cant": "Continuum of t.", "anchors": ["src/fibermat/interpolation.py:Interpolate", "src/fibermat/solver.py:solve"]}
{"id": "C50", "title": "Interpolated results are meaningful numbers", "statement": "Evaluating the vector results of solve at any t gives finite displacements and forces when at least two states are recorded. False in two cases: with a single recorded state (e.g. the default packing=1) vector results are NaN at t=0; the H result is NaN instead of inf on end-node rows.", "quantifier": "every recorded history", "why_tests_cant": "Absence claim.", "anchors": ["src/fibermat/interpolation.py:Interpolate", "src/fibermat/solver.py:solve"]}
{"id": "C51", "title": "Rendering locates points between the right nodes", "statement": "In vtk_mesh, a point of local abscissa x inside a fiber with strictly increasing node abscissae gets the coordinate node = k + (x-s_k)/(s_k+1 - s_k) with s_k < x <= s_k+1, whichever nearest neighbour the tree returns; with repeated abscissae the coordinate can be -inf.", "quantifier": "every fiber mesh, every x, every nearest-neighbour answer", "why_tests_cant": "Continuum of x and arbitrary tie breaking.", "anchors": ["src/fibermat/render.py:vtk_mesh"]}
{"id": "C52", "title": "Rendered fields interpolate nodal values", "statement": "The rendered displacement (force) at a node equals the nodal displacement (force), its derivative there equals the nodal rotation (moment), and without rotation it stays between the nodal values.", "quantifier": "every nodal field", "why_tests_cant": "Universal over fields.", "anchors": ["src/fibermat/render.py:vtk_mesh"]}
{"id": "C53", "title": "Rendering reproduces rigid rotations", "statement": "A fiber whose nodes move by u = phi s, theta = phi is rendered as displaced by phi x. (False unless all elements have unit length: the spline is built in node numbers but fed with slopes per millimetre.)", "quantifier": "every fiber mesh", "why_tests_cant": "Universal over meshes.", "anchors": ["src/fibermat/render.py:vtk_mesh"]}
{"id": "C54", "title": "Settings: what you set is what you get", "statement": "After any sequence of assignments to a Settings object, reading a parameter gives the last value assigned to it (theta clamped to [0,1] and scaled by pi, itermax clamped and truncated, tol clamped, integers truncated), and assignments to other parameters do not affect it; assigning None (np.inf for moduli) reads back None (np.inf). Assigning back the value read changes nothing (false for theta, read in radians but written in units of pi). A rejected assignment changes nothing (false for an optional parameter that was off: it is switched on before the value is rejected).", "quantifier": "every sequence of assignments", "why_tests_cant": "Unbounded histories.", "anchors": ["src/fibermat/widgets.py:Settings.__setitem__", "src/fibermat/widgets.py:Settings.__getitem__", "src/fibermat/widgets.py:Settings.__call__"]}
{"id": "C55", "title": "Wrapping a table shares its attributes, building does not", "statement": "Mat(df), Net(df), Stack(df), Mesh(df) share the attribute dictionary of their argument, so later changes through either are seen by both, whatever happens in between; Net(mat), Stack(mat, net) and Mesh(net) own a new dictionary: a change through one table reaches exactly the tables obtained from it by wrapping. (The comment 'Copy global attributes' is false, and Stack of an empty mat shares with its network.)", "quantifier": "every sequence of constructions and attribute assignments", "why_tests_cant": "Unbounded histories of aliasing.", "anchors": ["src/fibermat/mat.py:Mat.__init__", "src/fibermat/net.py:Net.__init__", "src/fibermat/net.py:Net.init", "src/fibermat/net.py:Stack.__init__", "src/fibermat/mesh.py:Mesh.__init__", "src/fibermat/mesh.py:Mesh.init"]}
{"id": "C56", "title": "Assembling constraints only adds a thickness column", "statement": "constraint(mat, mesh) leaves every existing column of the mesh unchanged, adds (or overwrites) column h with the thickness of the fiber of each node, and the mesh still passes Mesh.check; doing it twice changes nothing more.", "quantifier": "every valid mat and mesh", "why_tests_cant": "Universal over meshes.", "anchors": ["src/fibermat/model.py:constraint"]}
{"id": "C57", "title": "The stiffness matrix is the sum of the documented beam matrices", "statement": "With finite moduli every entry of K is the sum, over the beam elements of the mesh, of the entry of the 4x4 matrix given in the documentation of stiffness (coupling scaling its displacement-rotation terms), with the element length s_j - s_i when no bound is given.", "quantifier": "every valid mat and mesh with positive element lengths, every lmin, lmax, coupling, every entry", "why_tests_cant": "Universal over meshes; a test compares a few entries of a few matrices.", "anchors": ["src/fibermat/model.py:stiffness"]}
{"id": "C58", "title": "The documented sign conditions hold", "statement": "The problem stated in the documentation of solve asks for u <= 0 and f >= 0; every recorded state satisfies both. (False: the loop enforces neither. A bent fiber rises at its free end; a contact once active is never released and can pull.)", "quantifier": "every mesh, exact solver, errtol = 0", "why_tests_cant": "Tests check neither sign.", "anchors": ["src/fibermat/solver.py:solve"]}
{"id": "C59", "title": "Interpolated states are admissible and in equilibrium", "statement": "For errtol = 0 and at least two recorded states, u(t) and Z(t) returned by solve satisfy, for every t and every interp_size >= 2, the floor, lid and contact conditions, not only at recorded states; and K u(t) + C^T f(t) is zero up to errtol (Z(0) - Z(t)).", "quantifier": "every mesh, reliable solver, every t", "why_tests_cant": "Continuum of t over every history.", "anchors": ["src/fibermat/solver.py:solve", "src/fibermat/interpolation.py:Interpolate.__call__"]}
{"id": "C60", "title": "Lid height and stretch factor between states", "statement": "Z(t) is non-increasing and rlambda(t) non-decreasing on [0,1]; rlambda(t) Z(t) >= Z(0), with the excess Z(0) a(1-a)(Zk - Zk+1)^2/(Zk Zk+1) at the fraction a between two states: rlambda(t) = Z(0)/Z(t) is false between recorded states.", "quantifier": "every mesh, reliable solver, every t", "why_tests_cant": "Continuum of t over every history.", "anchors": ["src/fibermat/solver.py:solve", "src/fibermat/interpolation.py:Interpolate.__call__"]}
{"id": "C61", "title": "Rendered curvature of a constant curvature bend", "statement": "A fiber whose nodes move by u = kappa s^2/2, theta = kappa s has rendered curvature kappa (the field is documented in 1/mm). (False unless all elements have unit length: derivatives are taken with respect to node numbers.)", "quantifier": "every fiber mesh, every point between nodes", "why_tests_cant": "Universal over meshes and a continuum of points.", "anchors": ["src/fibermat/render.py:vtk_mesh"]}
{"id": "C62", "title": "The Settings constructor keeps its arguments", "statement": "Settings(**kwargs) succeeds for convertible arguments and reading a parameter then gives the argument (converted as in assignments), or the documented default when it is not given. False for an infinite modulus that is not the object np.inf (read back as a finite default), and for thickness=0 with the default tensile modulus (ZeroDivisionError).", "quantifier": "every argument list", "why_tests_cant": "Universal over arguments.", "anchors": ["src/fibermat/widgets.py:Settings.__init__"]}
{"id": "C63", "title": "Attributes of built tables", "statement": "Net(mat, periodic=p) has the attributes of mat with periodic = p; Mesh(net) those of net; Stack(mat, net) those of mat with the periodic flag of net: other attributes of net, such as skip_check, are lost.", "quantifier": "every sequence of constructions and attribute assignments", "why_tests_cant": "Unbounded histories.", "anchors": ["src/fibermat/net.py:Net.init", "src/fibermat/net.py:Stack.init", "src/fibermat/mesh.py:Mesh.init"]}
{"id": "C64", "title": "The generated table as a function of the random draws", "statement": "Mat(n, ...) consumes 5n draws of the generator, seeded by the seed or, with seed=None, by the entropy of the machine: x and y of fiber i are the draws i and n+i times size, the z column is the sorted third group times size, the in-plane angle is the draw 3n+i times theta, the out-of-plane angle the draw 4n+i times psi (so within +-theta/2, +-psi/2), and (u,v,w) = (cos a cos q, sin a cos q, sin q); psi = 0 gives horizontal fibers. It raises ValueError exactly for a negative n or a seed outside [0, 2^32).", "quantifier": "every argument tuple, every generator", "why_tests_cant": "Statistical tests cannot tell which draw goes where, nor a wrong scale of one angle at psi = 0.", "anchors": ["src/fibermat/mat.py:Mat.init"]}
{"id": "C65", "title": "Networks of fibers of any orientation", "statement": "Net(mat) connects fibers i < j exactly when, in some allowed image, their centres are closer seen from above than the mean of their lengths and the common perpendicular of their axes has both feet strictly inside the fibers; the abscissae of the row are these feet. (Connected fibers need not cross seen from above: refuted.)", "quantifier": "every valid mat with lengths at most the box size in periodic mode, both periodic modes, every orientation", "why_tests_cant": "Tests only build horizontal fibers.", "anchors": ["src/fibermat/net.py:Net.init"]}
{"id": "C66", "title": "Recorded contact masks", "statement": "The mask recorded with the first state is true on a constraint row exactly when its gap H - C u is at most tol; the mask recorded with a later state is true exactly on the rows whose gap at the state before is at most tol, and false on the rotations of infinitely stiff fibers. Every increment closes a gap that was open, so the mask of a later state never lists all gaps closed at that state (the reading 'the mask shows the contacts of its own state' is false).", "quantifier": "every mesh, reliable solver, tolerances >= 0, every recorded state", "why_tests_cant": "Unbounded histories; no test reads the masks.", "anchors": ["src/fibermat/solver.py:solve"]}
{"id": "C67", "title": "Recorded bounds", "statement": "At every recorded state the bounds H are the initial bounds minus dH times the travel of the lid; the displacements that satisfy C u <= H are exactly those with all nodes between the floor and a lid at the recorded height Z and no overlap at the contacts.", "quantifier": "every mesh, reliable solver, every recorded state, every displacement", "why_tests_cant": "Universal over displacements and histories.", "anchors": ["src/fibermat/solver.py:solve", "src/fibermat/model.py:constraint"]}
{"id": "C68", "title": "Results between recorded states", "statement": "With the default interp_size, u(t), f(t), H(t) (bounded rows) and Z(t) at the fraction a between the states k and k+1 are (1-a) times the record k plus a times the record k+1, and F(t) is zero; the mask read as booleans is, for every interp_size, the mask recorded with the state number floor(t (N-1)), that of the last state outside [0,1] and that of the only state when N = 1.", "quantifier": "every mesh, reliable solver, every t", "why_tests_cant": "Continuum of t over every history.", "anchors": ["src/fibermat/solver.py:solve", "src/fibermat/interpolation.py:Interpolate.__call__"]}
{"id": "C69", "title": "Points of fibers with coinciding nodes, or with none", "statement": "For a point over a fiber whose nearest node is k, vtk_mesh gives the coordinate and value of the element containing it; when k and the next node coincide and the point lies behind them, the coordinate is the label of k and the value that of the field at k; when k and the previous node coincide and the point is not behind them, the coordinate is -inf or NaN. A fiber without nodes raises KeyError (and only such a fiber); a point beyond the last node raises IndexError.", "quantifier": "every checked mesh, every fiber, every point", "why_tests_cant": "Coinciding nodes are rare in random mats; universal over points.", "anchors": ["src/fibermat/render.py:vtk_mesh"]}
{"id": "C70", "title": "Switches of the Settings widgets", "statement": "A modulus constructed as inf, or an optional parameter constructed as None, reads inf/None; turning its switch on gives the proposed value (shear 1, tensile G (l/h)^2, seed 0, threshold 20 h, lmin 0.01, lmax l, interp_size 100), turning it off gives inf/None back; a switch changes no other parameter.", "quantifier": "every argument list with finite length, thickness and shear modulus; every state", "why_tests_cant": "Universal over arguments; the proposed values are read by no test.", "anchors": ["src/fibermat/widgets.py:Settings.__init__", "src/fibermat/widgets.py:Settings.__getitem__"]}
{"id": "C71", "title": "Contact forces of a stack", "statement": "The marginals of the inequalities returned by Stack.solve, sign reversed, and those of the lower bounds are forces: non-negative, zero between fibers that do not touch and under fibers off the floor, and carrying the weight of every fiber; conversely such forces prove that the heights are the optimum, and they exist for every optimum. The floor carries the total weight. The load computed at the end of net.py is minus the force that a fiber receives from above, and at most the weight of the fibers of higher label. (The forces are not determined by the stack: refuted.)", "quantifier": "every valid mat, checked network, optimum", "why_tests_cant": "Universal over mats; no test reads the marginals.", "anchors": ["src/fibermat/net.py:Stack.solve", "src/fibermat/net.py:Stack.constraint"]}
{"id": "C72", "title": "Networks follow the motions of the fibers", "statement": "Whether two fibers are connected, and at which abscissae, depends on these two fibers only: when a pair of fibers of another mat (any labels, any other fibers) is the pair turned, moved, possibly seen in a vertical mirror, and scaled by k, the second network connects it exactly when the first connects the first pair, at abscissae multiplied by k; in periodic mode for boxes scaled alike and turns by multiples of a quarter (connection for lengths at most the box size, abscissae for horizontal fibers of at most half of it).", "quantifier": "every two valid mats, every pair of fibers, every motion, both periodic modes", "why_tests_cant": "Relates two runs on unbounded families of inputs.", "anchors": ["src/fibermat/net.py:Net.init"]}
{"id": "C73", "title": "The periodic network contains the plain one", "statement": "Every row of Net(mat, periodic=False) is, value by value, a row of Net(mat, periodic=True).", "quantifier": "every valid mat", "why_tests_cant": "Universal over mats; relates two runs.", "anchors": ["src/fibermat/net.py:Net.init"]}
{"id": "C74", "title": "Comparison of stacks", "statement": "When the fibers of one mat occur in the same order among those of another, moved or seen in a vertical mirror and scaled by k and with thicknesses at least k times theirs, each lies in the second stack at k times its height in the first or higher; with thicknesses exactly k times, and when they come first in the second mat, at exactly k times its height (so appending fibers moves no other, thicker fibers lower none). The order matters: the same fibers in another order may be stacked otherwise (refuted).", "quantifier": "every two valid mats of horizontal fibers, thresholds, linear solvers returning optima, both periodic modes", "why_tests_cant": "Relates two runs on unbounded families of inputs.", "anchors": ["src/fibermat/net.py:Stack.init", "src/fibermat/net.py:Stack.solve"]}
{"id": "C75", "title": "The results do not depend on the units", "statement": "When all lengths of the mat and of the mesh, tol, lmin and lmax are multiplied by k > 0 and all moduli by c > 0, solve records the same steps in the new units: displacements, bounds and lid heights times k, rotations, stretch factors and masks unchanged, forces times c k^2; whatever the numbering of the unknowns, the error tolerance and the (exact) linear solver of the second call. (With the same number for tol in both units, as with the default 1e-6, this is false: in small units every gap is within tol and nothing is compressed.)", "quantifier": "every checked mesh, every k, c > 0, exact linear solvers, regular linear systems, tolerances >= 0, every recorded state", "why_tests_cant": "Relates two unbounded runs on all scales.", "anchors": ["src/fibermat/solver.py:solve", "src/fibermat/model.py:stiffness", "src/fibermat/model.py:constraint"]}
{"id": "C76", "title": "Points of the VTK mesh", "statement": "vtk_mesh of a checked mat and the mesh of its network or stack never raises, and returns n times the points of one cylinder, fiber by fiber: each carries the data of its fiber, keeps its planar position, and is displaced vertically by the cubic Hermite interpolation of the displacement and rotation at the two nodes around it, exactly at the nodes; rotation and curvature are its derivatives, the force is interpolated alike. A displacement that has not one value per node is a ValueError.", "quantifier": "every valid mat, mesh spanning its fibers, nodal fields, cylinder, nearest-node tree", "why_tests_cant": "Universal over mats and fields; the rendering has no test.", "anchors": ["src/fibermat/render.py:vtk_mesh", "src/fibermat/render.py:vtk_mat", "src/fibermat/render.py:vtk_fiber"]}
{"id": "C77", "title": "Periodic pictures", "statement": "In periodic mode the points shown are exactly the images of the points by whole periods that fall in the square of two periods around the centre, each once, with its fields, whatever its height: every point off the axes is shown four times. This holds when every point lies within a period of the centre, which is so when every fiber reaches less than half a period from its centre. (With longer fibers images are missing: refuted.)", "quantifier": "every valid mat, mesh spanning its fibers, nodal fields", "why_tests_cant": "Universal over mats; the rendering has no test.", "anchors": ["src/fibermat/render.py:vtk_mesh"]}
{"id": "C78", "title": "The picture of the system and the error printed with it", "statement": "plot_system on the outputs of stiffness and constraint never raises for vectors of their sizes. Every non-zero place of the bordered matrix is drawn once, in the order of the permutation, in one colour telling what it belongs to: stiffness, closed contact with the floor, between nodes or with the lid, open contact. For the vectors recorded at a state the error printed is the one solve records with the next state; the contacts drawn as closed are those of the next step when no gap is between tol and the tolerances of isclose (otherwise they differ, in both directions: refuted).", "quantifier": "every checked mesh, displacement, permutation, linear solver; every recorded state of every run", "why_tests_cant": "Universal over meshes and runs; the picture has no test.", "anchors": ["src/fibermat/model.py:plot_system", "src/fibermat/solver.py:solve"]}
{"id": "C79", "title": "The main script goes to its end and exports the last recorded state", "statement": "main.py, from Mat(n, ...) to vtk_mesh, never raises for valid parameters, at least one fiber and at least three samples (or no resampling), when the libraries do their work. Its result has the n fibers asked for, with their dimensions and moduli; the exported fields are the nodal displacements, rotations and contact forces (with zero moments) of the last recorded state, one per node; the exported forces balance the elastic forces at each node and add up to zero on each fiber within the accepted errors; flat fibers end inside the slab without overlapping. With a seed the whole outcome is reproducible. Without fibers an exception is raised. (With two samples the export fails with ValueError when a single state is recorded: refuted.)", "quantifier": "every parameter set, state of the generator, linear programs and linear solvers meeting the stated conditions", "why_tests_cant": "Composes all the modules for unbounded inputs; the script has no test.", "anchors": ["main.py", "src/fibermat/mat.py:Mat.init", "src/fibermat/net.py:Net.init", "src/fibermat/net.py:Stack.init", "src/fibermat/mesh.py:Mesh.init", "src/fibermat/model.py:plot_system", "src/fibermat/solver.py:solve", "src/fibermat/render.py:vtk_mesh"]}
{"id": "C80", "title": "The energy stored is the work of the lid", "statement": "With no error accepted (errtol = 0), at every recorded state the elastic energy u.K u / 2 of the fibers equals the work done by the lid since the beginning: the sum over the steps of the mean of its forces at both ends times its travel. It is also minus half the work of the contact forces over the displacements. Nothing is dissipated nor created, whatever contacts close or open on the way.", "quantifier": "every checked mesh, linear solver giving numbers, every number of steps, every recorded state", "why_tests_cant": "A balance between histories of forces and displacements for unbounded runs; no test looks at energies.", "anchors": ["src/fibermat/solver.py:solve", "src/fibermat/model.py:stiffness", "src/fibermat/model.py:constraint"]}
{"id": "C81", "title": "States without pulling contacts minimise the energy", "statement": "A recorded state in which no contact force is negative solves the quadratic programme of the documentation of solver.py: no other displacement which keeps the fibers between the floor and the lid at its height and without overlap has less elastic energy (up to tol times the sum of the forces). With tol = 0 and |coupling| < 1 the minimum is reached only there, up to translations of whole fibers, and the energy is not smaller at any later state. (Without the condition on the forces this is false, since solve never opens a contact that pulls: refuted.)", "quantifier": "every checked mesh, linear solver giving numbers, every recorded state, every admissible displacement", "why_tests_cant": "Optimality against all displacements, for every mesh.", "anchors": ["src/fibermat/solver.py:solve", "src/fibermat/model.py:stiffness", "src/fibermat/model.py:constraint"]}
{"id": "C82", "title": "The pictures of a mesh show the beams, the contacts and the ends", "statement": "The drawing loop at the end of mesh.py and solver.py never raises on a checked mesh and draws no line twice. The lines of a fiber join its consecutive nodes in one colour and cover its length; a line between fibers stands for a connection and goes from its lower side to its upper side; ends are marked. In the mesh of a stack of flat fibers every connection is drawn (false when both sides have the same height, before stacking). After a run with errtol = 0 from an admissible start, the picture of the deformed mesh, at a recorded state or at any time between them, has the same lines, moved vertically only, all strictly between the floor and the lid.", "quantifier": "every checked mesh, linear solver giving numbers, recorded state, interpolation time", "why_tests_cant": "Universal over meshes and runs; the pictures have no test.", "anchors": ["src/fibermat/mesh.py:__main__", "src/fibermat/solver.py:__main__"]}
{"id": "C83", "title": "The contacts drawn with a stack are those that carry", "statement": "The script at the end of net.py draws, for a stack of flat fibers, exactly the contacts whose marginal exceeds numpy's tolerance 1e-8, each once and in the order of the rows, as a segment between the axes of its two fibers at one place up to periods and where the upper fiber lies on the lower one. It never raises on a mat of at least one fiber. (With fibers out of the plane it may raise IndexError: the moved fibers are no longer connected as before and there are more forces than connections.)", "quantifier": "every valid flat mat with at least one fiber, every optimal pair of heights and marginals", "why_tests_cant": "Relates the rows of a table to the multipliers of a linear program for every mat; the script has no test.", "anchors": ["src/fibermat/net.py:__main__", "src/fibermat/net.py:Stack.solve", "src/fibermat/net.py:Stack.constraint"]}
{"id": "C84", "title": "The notebook, from its settings to the exported mesh", "statement": "Settings that can be reached, with finite numbers where the functions need them, give their values as arguments within the ranges of the sliders. Cell 7 sets its parameters whatever was set before. After it, with libraries that do their work, all the cells go to their end. The contacts drawn by cell 24 are those whose force counts relative to the mean weight of a fiber. The cells 40 and 43 compute what main.py computes with the natural numbering, and export the fields of the last recorded state. With a seed every run gives the same and the meshes drawn are the ones packed (without a seed the cells draw different mats: refuted). Without fibers an exception is raised, although the slider allows n = 0.", "quantifier": "every history of settings, state of the generator, linear program and linear solver meeting the stated conditions", "why_tests_cant": "Composes the settings with all the modules; the notebook has no test.", "anchors": ["jupyter-notebook.ipynb", "src/fibermat/widgets.py:Settings", "src/fibermat/net.py:Stack.init", "src/fibermat/solver.py:solve", "src/fibermat/render.py:vtk_mesh"]}
{"id": "C85", "title": "From any mat to the exported mesh", "statement": "The computations shared by the scripts (Net, Stack, Mesh, solve, vtk_mesh) never raise on a valid mat of at least one fiber, generated or not, periodic or not, with or without a threshold, when the libraries do their work. The fibers of the result are those of the mat at other heights; the exported fields are those of the last recorded state, fibers in the plane end between the floor and the lid without overlap when errtol = 0.", "quantifier": "every valid non-empty mat, both modes, every threshold, every set of arguments of solve, linear programs and linear solvers meeting the stated conditions", "why_tests_cant": "Composes all the modules for unbounded inputs that the generator need not have produced; the scripts have no test.", "anchors": ["scripts/square.py", "scripts/logo.py", "src/fibermat/net.py:Net.init", "src/fibermat/net.py:Stack.init", "src/fibermat/mesh.py:Mesh.init", "src/fibermat/solver.py:solve", "src/fibermat/render.py:vtk_mesh"]}
{"id": "C86", "title": "The names of the package, and where the scripts stop", "statement": "Importing the package never raises and gives every class and function of its files under its own name, and the files under theirs. The scripts square.py and logo.py call the name `solver`, which is a file: they stop there with TypeError after building their mesh, for every outcome of the generator and the libraries. With the name `solve` they go to their end (the logo when at least one drawn point lies on its letters). (That the scripts as written go to their end is refuted.)", "quantifier": "every generator, linear program, linear solver; every number of fibers or points", "why_tests_cant": "A claim about all runs of scripts that have no test, and about every name that `from fibermat import *` binds.", "anchors": ["src/fibermat/__init__.py", "scripts/square.py", "scripts/logo.py", "src/fibermat/solver.py:solve"]}
{"id": "C87", "title": "The fibers of the logo lie on its letters", "statement": "logo.py makes a valid mat with one fiber at each drawn point whose square is set in the mask, in the order drawn, mirrored, with the dimensions and moduli asked for and in the plane. No index is out of the mask. The mat is the same at every run although no seed is given to Mat. Since Mat seeds the generator again with the same seed, the directions are not drawn apart: with at most a quarter of the points kept, the angle of the i-th fiber is proportional to the abscissa of the point 3k + i.", "quantifier": "every generator with values in its range, every number of points", "why_tests_cant": "Universal over draws and number of points; the script has no test.", "anchors": ["scripts/logo.py", "src/fibermat/mat.py:Mat.init"]}
{"id": "C88", "title": "The compression goes on until a column has no void left", "statement": "When |coupling| < 1, the fibers have positive element lengths and finite shear moduli, and every fiber is held by the floor, the lid or a held fiber (as in any stack of flat fibers whose threshold is not smaller than the thickness), a linear solver that solves the systems having one solution makes every step of solve exact: the recorded errors are zero, the error tolerance has no effect, every fiber stays held, the states are between the floor and the lid and without overlap, forces act only where a bound is met up to tol and balance the elastic forces. The next system has one solution exactly when no column (floor, lower node, upper node, lid) is closed throughout, so the last state is packed as asked, or has such a column, or is the last one allowed by itermax; the number of steps is at most the number of rows. In particular a packing that leaves room for two thicknesses is reached. (With coupling = 1, the default of solve, or with a smaller threshold, a stack may stop at its initial state: refuted.)", "quantifier": "every checked mesh and arguments meeting the stated conditions, every exact linear solver, every recorded state", "why_tests_cant": "Well-posedness of an unbounded family of linear systems along unbounded runs; the tests of solve check none of it.", "anchors": ["src/fibermat/solver.py:solve", "src/fibermat/model.py:stiffness", "src/fibermat/model.py:constraint", "src/fibermat/net.py:Stack.init"]}
{"id": "C89", "title": "Neither the numbering, nor the linear solver, nor the units are seen in the results", "statement": "Under the conditions of the previous property, two calls of solve on the same mesh with different numberings of the unknowns and different exact linear solvers record as many states, with equal displacements, rotations, forces, bounds, lid heights, packings and masks. The same holds when lengths and moduli are given in other units, tolerance and limits included, all recorded quantities being converted. Nothing is assumed of the linear systems met on the way.", "quantifier": "all pairs of exact solvers and numberings, all units, every mesh and arguments meeting the stated conditions", "why_tests_cant": "Relates unbounded runs; answers of the solvers to singular systems are arbitrary.", "anchors": ["src/fibermat/solver.py:solve", "src/fibermat/model.py:stiffness", "src/fibermat/model.py:constraint"]}
{"id": "C90", "title": "The main script packs the fibers as asked", "statement": "With flat fibers, positive limits of the lengths, |coupling| < 1 and a threshold not smaller than the thickness (the values of main.py), main.py goes to its end whether the linear solver fails with NaN or with numbers on singular systems, and its outcome does not depend on the error tolerance. The exported state is between floor and lid without overlap; with enough iterations it is packed as asked or has a column without void, hence packed as asked as soon as two thicknesses fit in the final height. The numbering computed by reverse_cuthill_mckee and the choice of the solver are not seen in the final state.", "quantifier": "every number of fibers, generator, exact linear solver, numbering, iteration limit", "why_tests_cant": "Composes all the modules for unbounded inputs; the script has no test.", "anchors": ["main.py", "src/fibermat/solver.py:solve", "src/fibermat/net.py:Stack.init", "src/fibermat/model.py:stiffness"]}
{"id": "C91", "title": "The fibers drawn, and the colours that show what they carry", "statement": "The scripts of mat.py and net.py draw one line per fiber, in their order, whose points are those of the axis between the ends; the two points of every row of a network are on the lines of its fibers. In the picture of a stack each fiber has a colour between 0 and 1: 1 - F/M where F is the force it receives from the fibers lying on it and M the largest of these forces, 1 for all fibers when nothing is carried; the normalisation by the mean weight does not change it. The colour bar goes from -M relative to the mean weight, above minus the number of fibers, to 0. Without fibers the script stops with AttributeError. The cell 24 of the notebook, which divides the forces before summing them, draws the same. (That the colours do not depend on the forces chosen by linprog is refuted.)", "quantifier": "every valid mat, every network and stack built from it, every optimum of the dual program", "why_tests_cant": "Relates what is drawn to the multipliers of a linear program for every mat; the scripts have no test.", "anchors": ["src/fibermat/mat.py:__main__", "src/fibermat/net.py:__main__", "src/fibermat/net.py:Stack.solve", "jupyter-notebook.ipynb"]}
{"id": "C92", "title": "The button of the display mode", "statement": "In IPython, a MatplotlibButton made without the description of the inline mode starts inline and changes to the other mode at each click; after any number of clicks its text, its value, its style and the last command run agree, and the commands run are the alternating ones. Made with the description of the inline mode it starts with qt. Outside IPython its construction raises AttributeError.", "quantifier": "every number of clicks, every description and style given", "why_tests_cant": "Universal over click histories; the widgets have no test.", "anchors": ["widgets.py:MatplotlibButton"]}
{"id": "C93", "title": "The button that installs packages", "statement": "The words of the command run by a PipButton are pip install -q, those of the option, then the packages and the keywords in their order, for names without blanks (with blanks: refuted). Before any click the button claims nothing; after any series of clicks it says Installed, with the style success, exactly when pip returned 0 at the last one, and otherwise shows nothing. When every package prints its version on one line, the table has one row per name asked for with the version of the module named by the package or by the value of the keyword; whatever is printed, its names are the first ones asked for. (That Installed comes with a table, and that versions on several lines stay beside their package, is refuted.)", "quantifier": "every list of packages and keywords, every behaviour of the shell", "why_tests_cant": "Universal over names and outputs of the shell; the widgets have no test.", "anchors": ["widgets.py:PipButton"]}
{"id": "C94", "title": "The mat stiffens as it is compressed", "statement": "With |coupling| <= 1, positive element lengths and finite moduli, along every run of solve with exact steps the force on the lid is never negative and never decreases, the stored energy never decreases, and the force grows faster and faster: between any three recorded states the slope of the force over the travel of the lid does not decrease. Hence the energy is at most half the product of force and travel. With a linear solver that solves the systems having one solution, |coupling| < 1 and held fibers, the same holds for every error tolerance below 1/3 and at all pseudo-times of the returned functions, resampled or not; there too the energy is the work of the lid and is minimal when all contacts push. (Refuted: that the force of each single contact does not decrease; that the lid is never pulled when coupling > 1.)", "quantifier": "every checked mesh and arguments meeting the stated conditions, every exact linear solver, every recorded state, every pseudo-time in [0, 1]", "why_tests_cant": "Convexity of an unbounded history, for every mesh; the tests of solve look at no force.", "anchors": ["src/fibermat/solver.py:solve", "src/fibermat/model.py:stiffness", "src/fibermat/model.py:constraint", "src/fibermat/interpolation.py:Interpolate"]}
{"id": "C95", "title": "Packing with a direct solver, from any mat, in the scripts and in the notebook", "statement": "For a valid mat of flat fibers with finite shear moduli, a threshold not smaller than the thicknesses, |coupling| < 1, a positive lmin and an error tolerance below 1/3, the chain Net, Stack, Mesh, solve, vtk_mesh goes to its end with every linear solver that solves the systems having one solution, and gives the same for every such tolerance. In its last state the fibers are between floor and lid and do not overlap; given enough iterations it is packed as asked or has a column without void, and is packed as asked when two thicknesses fit in the final height; if the lid moved and the moduli are finite, the force on the lid is never negative, never decreases and grows faster and faster at all pseudo-times. main.py, square.py and logo.py (with solve for solver) and the notebook after its cell 7 (fibers at most 10 thick) are such calls, whatever the number of fibers.", "quantifier": "every valid mat, generator, exact linear solver, options meeting the stated conditions, number of fibers, pseudo-time", "why_tests_cant": "Composes all modules for unbounded inputs with a default error tolerance; the scripts and the notebook have no test.", "anchors": ["main.py", "scripts/square.py", "scripts/logo.py", "jupyter-notebook.ipynb", "src/fibermat/solver.py:solve", "src/fibermat/net.py:Stack.init"]}
{"id": "C96", "title": "The targets of the solver only tell when to stop", "statement": "Asking solve for more packing, more iterations or a larger error tolerance, everything else the same, only appends states to those recorded: the shorter history is a prefix of the longer one, and exceptions are the same. Where the shorter run stops, it has used its iterations, is packed as asked, or the next step has an error above its tolerance. Without resampling, u, f, F, Z, rlambda, the bounded rows of H, the mask and the error returned by the shorter run at t are those returned by the longer one at t (n-1)/(n'-1), for n and n' states (with interp_size: refuted). The error at t is that recorded with state number floor(t (n-1)); it is NaN or between 0 and errtol, and 0 with a linear solver that solves the systems having one solution.", "quantifier": "every mat, mesh, arguments, linear solver (returning numbers for the returned functions other than the error), every t in [0, 1]", "why_tests_cant": "Relates two runs of unbounded length, for every solver; no test calls solve with two targets.", "anchors": ["src/fibermat/solver.py:solve", "src/fibermat/interpolation.py:Interpolate"]}
{"id": "C97", "title": "The heights of a stack are the thicknesses of the thickest piles", "statement": "In a stack built from Net(mat), the top of a fiber is at the thickness of the thickest pile of fibers, each connected to the next one of larger label, that ends with it; the fibers on the floor are exactly those connected to no smaller label; the lid of the compression (the Z returned by constraint) starts at the thickness of the thickest pile of all, whatever the threshold. Only the order of connected fibers matters: fibers found among others (moved, scaled, shifted by whole periods, described from the other end, renumbered, with at least their thickness) in an order that agrees for the connected ones do not get lower, have the same heights when no other fiber is connected below them, and the lid starts at the same height when there are no others.", "quantifier": "every valid mat of flat fibers, periodic or not, every optimum returned by linprog, every renumbering, every threshold", "why_tests_cant": "Longest paths of an unbounded graph, and a comparison of two mats; no test computes the heights of a stack.", "anchors": ["src/fibermat/net.py:Stack.init", "src/fibermat/net.py:Stack.constraint", "src/fibermat/net.py:Net.init", "src/fibermat/model.py:constraint"]}
{"id": "C98", "title": "Images and orientation of the fibers do not matter", "statement": "Net connects two fibers exactly when it connects them after a common motion (turn, vertical mirror, translation, scaling by k), after shifting each of them by whole periods in periodic mode, and after describing either of them from its other end (u, v, w with the opposite sign); the abscissae are multiplied by k, with the opposite sign on a fiber described from its other end. So moving a periodic mat across its box, with the fibers that leave coming back on the other side, changes neither its connections nor, by C97, the heights of its stack. In periodic mode for lengths at most the box size (connection) or at most half of it with horizontal fibers (abscissae), boxes scaled alike and turns by multiples of a quarter. (For fibers longer than the box this is refuted: the connections depend on where the box is cut.)", "quantifier": "every pair of fibers in every pair of mats, every motion, every whole number of periods", "why_tests_cant": "Quantifies over all mats and motions; no test moves a mat.", "anchors": ["src/fibermat/net.py:Net.init"]}
{"id": "C99", "title": "The stacking test of the project passes for every draw, and only for right heights", "statement": "With a linear programming solver that finds optima, test_stack_finite and test_stack_periodic (which are the same) pass whatever the generator draws, as long as the drawn lengths and thicknesses are positive; a drawn value that is not positive makes them stop with ValueError (that they pass with every draw is refuted). The mat they draw lies in its plane, so that the network they look at is the one of the stack. Their check passes on every valid mat, of any number of fibers in any orientation. It sees every wrong height: on a non-empty mat it passes exactly when the solver answered an optimum of the stacking program, that is heights without overlap where each fiber is on the floor or on another one, and raises ValueError for any other answer.", "quantifier": "every generator, every draw, every mat, every answer of the linear programming solver", "why_tests_cant": "A run of the test sees one draw; that no draw can make it fail, and no wrong answer can make it pass, is about all of them.", "anchors": ["test/test_net.py:test_stack_finite", "test/test_net.py:test_stack_periodic", "src/fibermat/net.py:Stack.solve"]}
{"id": "C100", "title": "A mat moved in its plane is compressed in the same way", "statement": "Take two mats with the same horizontal fibers, in the same order, up to a turn about the vertical, a vertical mirror, a translation, a scaling of lengths by k, whole periods in periodic mode, a scaling of moduli by c, and any initial heights. Their stacks (threshold scaled by k) have the same rows, with abscissae and heights multiplied by k; their meshes have the same labels, beams and constraints. With tolerance and element lengths scaled by k, Net, Stack, Mesh and solve record the same states: at every t the returned functions give displacements, gaps and lid heights multiplied by k, equal rotations, compactions and masks, and forces multiplied by c k^2. If the first mat meets the conditions of C95 and the second one is valid, the second meets them too. The error tolerance (below 1/3) and the linear solvers may differ. In periodic mode for turns by multiples of a quarter, boxes scaled alike, fibers at most half as long as the box.", "quantifier": "every pair of such mats, every motion and scaling, every pair of optimal stackings and direct linear solvers, every t and number of samples", "why_tests_cant": "Relates two runs of all the modules on unbounded inputs; no test compresses the same mat twice.", "anchors": ["src/fibermat/net.py:Net.init", "src/fibermat/net.py:Stack.init", "src/fibermat/mesh.py:Mesh.init", "src/fibermat/model.py:stiffness", "src/fibermat/model.py:constraint", "src/fibermat/solver.py:solve", "src/fibermat/interpolation.py:Interpolate"]}
{"id": "C101", "title": "Arguments left out stand for empty objects, and seed the generator", "statement": "Called without a mat, a network or a mesh, the constructors Net, Stack and Mesh, the checks, Stack.solve, Stack.constraint, stiffness, constraint, solve, vtk_mat and vtk_mesh answer as the same call with empty objects (no fibers, box of 50, periodic) in their place, whatever the state of numpy's global generator; the empty objects pass their checks. With everything given, a call leaves the generator as it was; with something left out it leaves the generator as np.random.seed(0) does, also when it raises. So in a session of such calls the answers never depend on the generator, and the numbers drawn after it are those following seed 0 as soon as one call left something out. stiffness, constraint and solve raise whenever the mat or the mesh is left out. Stack(mat) without a network puts every fiber on the floor. (Refuted: that defaults leave the generator alone; that Stack(mat) is Stack(mat, Net(mat)).)", "quantifier": "every call of the interface, every combination of arguments left out, every session, every generator and state", "why_tests_cant": "Universal over sessions of calls and generator states; the tests build empty objects once and look at no draw afterwards.", "anchors": ["src/fibermat/mat.py:Mat.check", "src/fibermat/net.py:Net.init", "src/fibermat/net.py:Net.check", "src/fibermat/net.py:Stack.init", "src/fibermat/net.py:Stack.solve", "src/fibermat/net.py:Stack.constraint", "src/fibermat/mesh.py:Mesh.init", "src/fibermat/mesh.py:Mesh.check", "src/fibermat/model.py:stiffness", "src/fibermat/model.py:constraint", "src/fibermat/solver.py:solve", "src/fibermat/render.py:vtk_mat", "src/fibermat/render.py:vtk_mesh"]}
{"id": "C102", "title": "The class of a table tells the constructors whether to wrap or to build", "statement": "Mat(t) keeps the data and the attributes of any table passing Mat.check. Net(t) and Stack(t) build only from an object of class Mat, Mesh(t) only from a Net or a Stack; any other table passing the check is kept as it is and takes the class, and nothing else is accepted. Built objects are those of Net.init, Stack.init and Mesh.init. periodic and pairs (Net) or threshold (Stack) with a table that is not a Mat raise TypeError, a network given to Stack with it ValueError. Stack(mat) stacks with an empty periodic network. A copy or a selection of rows is a plain DataFrame: Net(mat.copy()) and Mesh(net.copy()) raise KeyError, and Net(Mat(mat.copy())) is Net(mat), Mesh(Net(net.copy())) is Mesh(net). Each constructor gives back what it made; Stack(net) is the network under another class. With skip_check set, Net(mat.copy()) is a Net without its columns, of which Mesh raises KeyError. (Refuted: that Net treats a copy of a mat as the mat; that Stack(net) has no overlap.)", "quantifier": "every table, class, attribute and option", "why_tests_cant": "Universal over tables and classes; no test passes a copy, a slice, or an object of an unexpected class.", "anchors": ["src/fibermat/mat.py:Mat.__init__", "src/fibermat/net.py:Net.__init__", "src/fibermat/net.py:Stack.__init__", "src/fibermat/mesh.py:Mesh.__init__"]}
{"id": "C103", "title": "Interpolated values have the type of the samples", "statement": "Interpolate returns float samples as they are. For integer samples it returns the sample itself at its parameter and anywhere an integer between the smallest and the largest sample, less than one from the float interpolation and not further than it from zero; non-decreasing samples give non-decreasing integers. Step interpolation returns the latest sample, integer or boolean. Linear interpolation of booleans is true strictly between two samples as soon as one of them is true. Outside of [0, 1] the last sample is returned with its type. (Refuted: that the integer returned is the nearest one.)", "quantifier": "every list of at least two samples, every parameter, every number of samples asked for", "why_tests_cant": "Universal over parameters and samples; no test interpolates.", "anchors": ["src/fibermat/interpolation.py:Interpolate.__init__", "src/fibermat/interpolation.py:Interpolate.__call__"]}
{"id": "C104", "title": "Names and directions do not matter to the compression", "statement": "Take two meshes with the same nodes under other numbers: a one to one renumbering of the nodes and of the fibers, each fiber possibly described from its other end, such that corresponding nodes are at the same height on fibers of the same section and moduli, correspond by the same beams (run backwards on the fibers described from the other end) of the same lengths, and by the same contacts with the same side above. With the same parameters, solve records the same states under these names at every step: equal lid heights and compactions, the same displacement at corresponding nodes, the same rotation (the opposite one on the fibers described from the other end), and the same force, gap and mark in the three rows of corresponding contacts. The orders of the unknowns, the error tolerances and the linear solvers may differ. It holds as long as the systems have one solution, and always with direct solvers from a mesh whose fibers are held (C88).", "quantifier": "every pair of such meshes and mats, every renumbering, every set of reversed fibers, every pair of linear solvers and orders of the unknowns", "why_tests_cant": "Relates two runs on unbounded inputs; no test renumbers a mesh or turns a fiber around.", "anchors": ["src/fibermat/model.py:stiffness", "src/fibermat/model.py:constraint", "src/fibermat/solver.py:solve"]}
{"id": "C105", "title": "The order of the fibers and their directions do not matter to the compression", "statement": "List the fibers of a mat of horizontal fibers in another order, describe some of them from their other end and replace some by their periodic images, so that two connected fibers keep their order. Net, Stack (any threshold) and Mesh then give the same mesh under other names: each node is at the same abscissa (the opposite one on a reversed fiber) and height of the corresponding fiber, with the same beams and contacts, as long as no fiber has two nodes at one abscissa. solve records the same states under these names and gives back the same lid heights and compression ratios at every parameter, whatever linear programs, linear solvers. (Refuted: without the order, connected fibers that are exchanged are stacked the other way; with coinciding nodes, a fiber described from its other end is another chain of beams.)", "quantifier": "every pair of such mats, periodic or not, every order and set of reversed fibers, threshold, number of samples and parameters of solve", "why_tests_cant": "Relates two whole computations on unbounded inputs; no test reorders a mat or turns a fiber around.", "anchors": ["src/fibermat/net.py:Net.init", "src/fibermat/net.py:Stack.init", "src/fibermat/mesh.py:Mesh.init", "src/fibermat/model.py:stiffness", "src/fibermat/model.py:constraint", "src/fibermat/solver.py:solve"]}
{"id": "C106", "title": "A mat turned over has a stack of the same height", "statement": "Turn a mat of horizontal fibers over about an axis of its plane: the fibers are seen in a mirror and, of two connected ones, the one below is now above (besides, it may be turned, moved, scaled by k, shifted by whole periods, and fibers described from their other end). Net and Stack then give a stack of the same height: the lid of the compression (the Z returned by constraint) starts at k times its height. No fiber is higher than its old place seen from the lid: the heights of a fiber in both stacks add up to at most the height of the lid, and exactly to it when a pile as high as the lid goes through the fiber, and only then. The fibers on the floor are exactly those that were connected to nothing above them. (Refuted: that all fibers are at their old places seen from the lid.)", "quantifier": "every mat, motion, threshold, linear programming solver; periodic (turns by multiples of a quarter, boxes scaled alike, lengths at most the box size) or not", "why_tests_cant": "No test compares two mats; a symmetric height is not visible in one stack.", "anchors": ["src/fibermat/net.py:Stack.init", "src/fibermat/net.py:Stack.solve", "src/fibermat/net.py:Net.init", "src/fibermat/model.py:constraint"]}
{"id": "C107", "title": "A part of a mat that touches nothing else is compressed as if it were alone", "statement": "Let a mesh contain another one, the part: same heights, sections, moduli, beams and contacts, and no beam or contact between the part and the rest. Compress both with the same model and no tolerance on the contacts; the order of the unknowns, the packing asked for, itermax and the linear solvers may differ. Until the lid comes to the part, nothing is recorded on it: displacements, rotations and contact forces are 0. From then on, in every recorded state, the displacements, rotations and contact forces of the part are those of the part compressed alone, at the same height of the lid: on the line between two consecutive states of its own record. If the part alone goes on until a column has no void left, this holds for every state recorded for the whole, whose lid never goes below. Needed: no beam of the whole is shorter or longer than all beams of the part, or no bounds lmin, lmax are given. (Refuted without it: with lmin given, one beam elsewhere that is shorter changes the rigidity of the others.)", "quantifier": "every pair of meshes, every part, direct linear solvers, numberings, packings and numbers of iterations, fibers held by floor, lid or others; contact tolerance 0", "why_tests_cant": "Relates two runs of unbounded length with different events; no test compares a mat with a part of it.", "anchors": ["src/fibermat/model.py:stiffness", "src/fibermat/model.py:constraint", "src/fibermat/solver.py:solve"]}
{"id": "C108", "title": "Fibers that touch none of the others are stacked and compressed as if they were alone", "statement": "Let a mat of horizontal fibers contain the fibers of another one (anywhere in its list, possibly as periodic images, two connected ones in the same order), no other fiber being connected to one of them in the network. Stack gives these fibers the same heights as without the others, at any threshold. As long as no fiber has two nodes at one abscissa, their nodes in the mesh of the whole are, at the same abscissae and heights, those of their own mesh, with the same beams and contacts and nothing that joins them to the rest. Until the lid comes to them nothing is recorded on them; from then on their displacements, rotations and contact forces are those recorded when they are compressed alone, at the same height of the lid, and to the end when alone they are compressed until a column has no void left. (Refuted: that the others may be connected above them; the heights are the same, but not the mesh.)", "quantifier": "every pair of such mats, periodic or not, threshold, right linear programming solvers, direct linear solvers, packings, itermax, numbers of samples; contact tolerance 0 and the same span of beam lengths when lmin is given", "why_tests_cant": "Relates two whole computations on unbounded inputs; no test adds a fiber to a mat.", "anchors": ["src/fibermat/net.py:Net.init", "src/fibermat/net.py:Stack.init", "src/fibermat/mesh.py:Mesh.init", "src/fibermat/model.py:stiffness", "src/fibermat/model.py:constraint", "src/fibermat/solver.py:solve"]}
{"id": "C109", "title": "The forces on two parts that touch nothing else add up", "statement": "Let the fibers of a mat be those of two others, none of one being connected to one of the other (or a mesh consist of two parts that no beam and no contact joins). Compress the three with the same model and no tolerance on the contacts. In every state recorded for the whole, as long as the lid is not below the end of the records of the two parts, the total force on the lid is the sum of the forces on the lid when the two parts are compressed alone, at the same height of the lid (0 before the lid comes to a part, on the line between two recorded states after). The same holds for the total force on the floor and the total force between fibers. The force counted is the one of C94.", "quantifier": "every pair of parts, every mat and threshold, periodic or not, direct linear solvers, numberings, packings, itermax; contact tolerance 0 and the same span of beam lengths when lmin is given", "why_tests_cant": "Relates three runs of unbounded length with different events; no test computes the force on the lid.", "anchors": ["src/fibermat/net.py:Net.init", "src/fibermat/net.py:Stack.init", "src/fibermat/mesh.py:Mesh.init", "src/fibermat/model.py:stiffness", "src/fibermat/model.py:constraint", "src/fibermat/solver.py:solve"]}
{"id": "C110", "title": "The energies of two parts that touch nothing else add up", "statement": "Let the fibers of a mat be those of two others, none of one being connected to one of the other (or a mesh consist of two parts that no beam and no contact joins). Compress the three with the same model and no tolerance on the contacts. In every state recorded for the whole, as long as the lid is not below the end of the records of the two parts, the energy stored in the fibers, u . K u / 2, is the sum of the energies of the two parts, with their own stiffness matrices and the displacements they have when compressed alone, at the same height of the lid (0 before the lid comes to a part, on the line between two recorded states after). With finite moduli this sum is the work done so far by the lid on the whole (C80), and a part alone never pushes the lid harder nor stores more energy than the whole.", "quantifier": "every pair of parts, every mat and threshold, periodic or not, direct linear solvers, numberings, packings, itermax; contact tolerance 0 and the same span of beam lengths when lmin is given", "why_tests_cant": "Relates three runs of unbounded length with different events; no test computes an energy.", "anchors": ["src/fibermat/net.py:Net.init", "src/fibermat/net.py:Stack.init", "src/fibermat/mesh.py:Mesh.init", "src/fibermat/model.py:stiffness", "src/fibermat/model.py:constraint", "src/fibermat/solver.py:solve"]}
{"id": "C111", "title": "Thresholds of Stack compared: a larger one keeps more, a large one everything, one below the thicknesses no contact", "statement": "Stack a mat of horizontal fibers twice over the same network, with thresholds d <= d'. The heights are the same, and the compression starts with the lid at the same height, also without a threshold; the rows kept with d are rows kept with d', in the same order and none twice, and every other row kept with d' joins points more than d apart. Each node of the mesh made with d is, on the same fiber, at the same place and facing the same node, a node of the mesh made with d', no two the same. With a threshold not less than the height of any fiber, the rows are those kept without a threshold. With one less than the thickness of every fiber, no row joins two fibers. With one not less than the thickness of any fiber, every fiber that is not on the floor keeps a row to a fiber that carries it. (Refuted: that the last holds for any threshold >= 0.)", "quantifier": "every mat, network, pair of thresholds and right linear programming solver", "why_tests_cant": "Relates computations with different arguments, for all mats; the tests use at most one threshold.", "anchors": ["src/fibermat/net.py:Stack.init", "src/fibermat/mesh.py:Mesh.init"]}
