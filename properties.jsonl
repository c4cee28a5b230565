{"id": "C01", "title": "Changing coordinate system and back is the identity", "statement": "For any two coordinate systems A and B with orthonormal axes, expressing rays given in A in B and then again in A (RayVector.toCoordSys twice, or CoordTransform.applyForward followed by applyReverse, or the array versions) returns every position and velocity to its starting value, and nothing else about the rays changes.", "quantifier": "all orthonormal coordinate systems A, B; all positions, velocities, times, wavelengths, fluxes and flags; any number of rays", "why_tests_cant": "A test samples a few frames and rays; the claim is an algebraic identity over a continuum of frames, and a transposed index that happens to vanish for axis-aligned test frames would survive every such sample.", "anchors": ["batoid/coordTransform.py: CoordTransform", "batoid/rayVector.py: RayVector.toCoordSys", "src/batoid.cpp: applyForwardTransform, applyReverseTransform, applyForwardTransformArrays, applyReverseTransformArrays"]}
{"id": "C02", "title": "Changes of coordinate system compose", "statement": "Going from frame A to frame B and then from B to C gives the same rays as going straight from A to C; going from A to A changes nothing.", "quantifier": "all triples of orthonormal frames, all rays", "why_tests_cant": "The three-frame law quantifies over triples of rotations; tests can only check a few to rounding error.", "anchors": ["batoid/coordTransform.py: CoordTransform.__init__", "batoid/rayVector.py: RayVector.toCoordSys"]}
{"id": "C03", "title": "A change of coordinate system is rigid and does not move the ray", "statement": "toCoordSys preserves the speed of each ray, the distance between any two rays and every scalar product of velocities; the ray's global position and direction (local ones mapped out with CoordSys.toGlobal) are the same before and after; times, wavelengths, fluxes and both flags are untouched.", "quantifier": "all orthonormal frames, all rays, failed or not", "why_tests_cant": "Isometry is a statement about every pair of points.", "anchors": ["batoid/coordSys.py: CoordSys.toGlobal", "batoid/rayVector.py: RayVector.toCoordSys", "src/batoid.cpp: applyForwardTransform"]}
{"id": "C04", "title": "Any history of frame edits leaves an orthonormal frame with the documented pose", "statement": "Starting from the global frame, any sequence of shiftGlobal, shiftLocal, rotateGlobal and rotateLocal with rotation matrices yields a frame whose axes are orthonormal and right-handed; toLocal inverts toGlobal; a local shift by d moves the origin by exactly the global image of d; a rotation leaves the rotation centre fixed; a local rotation about the own origin keeps the origin.", "quantifier": "all finite edit histories, all rotation matrices (including RotX, RotY, RotZ of every angle), all centres and reference frames", "why_tests_cant": "Histories are unbounded, rotations a continuum; tests only check short fixed sequences to a tolerance.", "anchors": ["batoid/coordSys.py: CoordSys.shiftGlobal, shiftLocal, rotateGlobal, rotateLocal, toGlobal, toLocal, RotX, RotY, RotZ"]}
{"id": "C05", "title": "Propagation is a free flow in time", "statement": "propagate(t) puts each ray exactly at positionAtTime(t) with time t and leaves velocity, wavelength, flux and flags unchanged; propagating to t1 and then to t2 equals propagating to t2; positionAtTime is unaffected by propagating first; propagating to the ray's own time is the identity.", "quantifier": "all rays, all times, any sequence of propagate calls", "why_tests_cant": "Quantifies over every sequence of times.", "anchors": ["batoid/rayVector.py: RayVector.propagate, positionAtTime", "src/rayVector.cpp: RayVector::propagateInPlace, positionAtTime"]}
{"id": "C06", "title": "The plane-wave phase belongs to the wave, not to where the ray is parked or which frame is used", "statement": "RayVector.phase(r, t) is unchanged by propagating the rays first, is unchanged when rays and r are both expressed in another orthonormal frame, equals k.(r-r0) - omega (t-t0) with the published k and omega, and vanishes on the ray itself.", "quantifier": "all rays with non-zero velocity and wavelength, all points, all times, all frames", "why_tests_cant": "Continuum of points, times and frames.", "anchors": ["batoid/rayVector.py: RayVector.phase, k, omega", "src/rayVector.cpp: RayVector::phase"]}
{"id": "C07", "title": "Reflection obeys the law of reflection", "statement": "After reflect, an unfailed ray sits at its intersection with the surface, keeps its speed, its velocity component along the surface normal there is reversed and its component perpendicular to the normal is unchanged; reflecting twice in the same normal restores the velocity.", "quantifier": "all surfaces, all rays that hit, every unit normal", "why_tests_cant": "The law must hold at every point of every surface and every incidence.", "anchors": ["src/batoid.cpp: reflect", "batoid/trace.py: reflect"]}
{"id": "C08", "title": "Refraction obeys Snell's law with the right speed", "statement": "After refract from index n1 to n2 an unfailed ray has speed exactly 1/n2, n2 sin(theta2) = n1 sin(theta1) holds as a vector identity (the tangential components of n1 times the old unit direction and of n2 times the new one agree), the ray stays in the plane of incidence and continues to the same side of the surface it was heading to, whichever way the normal points; with n1 = n2 the ray goes straight on.", "quantifier": "all surfaces with unit normals, all incidence directions from either side, all positive indices", "why_tests_cant": "Vector Snell's law for all directions, both orientations of the normal and all indices.", "anchors": ["src/batoid.cpp: refract", "batoid/trace.py: refract", "batoid/optic.py: RefractiveInterface.interact"]}
{"id": "C09", "title": "Total internal reflection is flagged exactly when it happens", "statement": "A ray that was not failed and hits the surface is marked failed by refract if and only if (n1/n2)^2 (1 - cos^2 theta1) > 1; then it is also marked vignetted, otherwise no flag changes and the velocity is a real number.", "quantifier": "all incidence angles and index ratios, including the critical angle itself", "why_tests_cant": "The equivalence includes the boundary angle, which no sampled test hits.", "anchors": ["src/batoid.cpp: refract"]}
{"id": "C10", "title": "Splitting a ray agrees with reflecting it and refracting it", "statement": "rSplit returns the same refracted ray as refract (with the same coating) and the same reflected ray as reflect (with the same coating): same position, time, velocity, flux and flags; wavelengths are unchanged, and for a lossless coating (reflectivity + transmissivity = 1) the two fluxes add up to the incoming flux.", "quantifier": "all surfaces, media, coatings, rays, frames", "why_tests_cant": "Three independent copies of the same numerical code must agree on every input.", "anchors": ["src/batoid.cpp: rSplit, reflect, refract", "batoid/trace.py: rSplit", "src/coating.cpp: SimpleCoating"]}
{"id": "C11", "title": "An intersected ray is on its own line and on the surface", "statement": "For plane, tilted plane, paraboloid, sphere and conic surfaces, a ray that intersect does not mark as failed has moved along its own straight line and its new position lies on the complete algebraic surface. For planes, tilted planes and paraboloids z equals surface.sag(x, y) there. For spheres, ellipsoids and hyperboloids z equals surface.sag(x, y) whenever the line meets the surface described by sag, off a hyperboloid's far region |(1+k)z| >= 2|R|. Every ray that starts off the surface and crosses it is moved.", "quantifier": "all surface parameters, all rays that are not parallel to the surface, from either side", "why_tests_cant": "Root selection must be right for every ray/surface geometry; the wrong root only shows on particular geometries.", "anchors": ["src/plane.cpp", "src/tilted.cpp", "src/paraboloid.cpp", "src/sphere.cpp", "src/quadric.cpp: timeToIntersect", "src/batoid.cpp: intersect"]}
{"id": "C12", "title": "A miss is flagged, and only a miss", "statement": "For the closed-form surfaces intersect marks an unfailed ray as failed exactly when its line does not meet the (complete) surface (excluding lines lying in a plane and asymptotes of a hyperboloid, and conic = -1), and then also marks it vignetted and leaves position, velocity and time as they were.", "quantifier": "all surface parameters and all rays, including tangent and parallel ones", "why_tests_cant": "An if-and-only-if over a continuum including tangency.", "anchors": ["src/plane.cpp", "src/tilted.cpp", "src/paraboloid.cpp", "src/sphere.cpp", "src/quadric.cpp: timeToIntersect", "src/batoid.cpp: intersect"]}
{"id": "C13", "title": "An iterative intersection is never reported unless it is on the surface", "statement": "For surfaces intersected iteratively (asphere, sum, polynomial/Zernike, bicubic), if the ray is not marked failed its new position is on its own line and |sag(x,y) - z| < 1e-12 there, whatever the number of iterations allowed and however badly the iteration behaved.", "quantifier": "all such surfaces, all rays, every iteration limit, every number system used for the arithmetic (including IEEE doubles with NaN and infinities)", "why_tests_cant": "Convergence depends on the surface; the guarantee must hold even when Newton diverges.", "anchors": ["src/surface.cpp: Surface::timeToIntersect", "src/asphere.cpp", "src/sum.cpp", "src/polynomialSurface.cpp", "src/bicubic.cpp", "batoid/global_vars.py: niter"]}
{"id": "C14", "title": "Clock bookkeeping", "statement": "When a ray is moved to a surface its time advances by exactly the elapsed flight time, so that the distance flown equals speed times elapsed time and, in a medium of index n with speed 1/n, the time increment is n times the geometric distance (optical path length); the ray's trajectory (position as a function of time) is not altered by intersect.", "quantifier": "all surfaces, all rays that hit, all frames", "why_tests_cant": "Quantifies over all rays and composed frames.", "anchors": ["src/batoid.cpp: intersect, reflect, refract, rSplit", "batoid/rayVector.py: RayVector.t"]}
{"id": "C15", "title": "Surface normals are unit vectors perpendicular to the surface", "statement": "For every surface built from plane, sphere, paraboloid, quadric, asphere, polynomial and sums of them (a Tilted plane is the exception: its normal is not perpendicular, see the refutation), surface.normal(x,y) is finite inside the open domain, and wherever it is finite the sag is differentiable and the normal has length one, positive z component and is perpendicular to both tangent directions (1,0,dsag/dx) and (0,1,dsag/dy), and to every differentiable curve that lies in the surface.", "quantifier": "all surfaces built from plane, sphere, paraboloid, quadric, asphere, polynomial and nested sums of them; all points", "why_tests_cant": "A continuum of surfaces and points; finite differences in tests cannot see an exact violation, and symmetric samples hide swapped axes.", "anchors": ["src/plane.cpp", "src/tilted.cpp", "src/sphere.cpp", "src/paraboloid.cpp", "src/quadric.cpp", "src/asphere.cpp", "src/sum.cpp", "src/polynomialSurface.cpp: normal"]}
{"id": "C16", "title": "Surface addition adds sags and slopes", "statement": "Sum(surfaces).sag is the sum of the sags and its normal is the unit normal whose slopes are the sums of the slopes given by the individual normals; the result does not depend on the order of the summands and a zero surface (plane) adds nothing.", "quantifier": "all non-empty lists of surfaces, all points", "why_tests_cant": "Unbounded number of summands in any order.", "anchors": ["src/sum.cpp: Sum::sag, normal", "batoid/surface.py: Sum", "batoid/surface.py: Surface.__add__"]}
{"id": "C17", "title": "Polynomial surfaces evaluate the polynomial they were given", "statement": "The sag of a polynomial surface with coefficient array a at (x,y) is the double sum a[i,j] (x-x0)^i (y-y0)^j, and its normal is the unit normal of that polynomial.", "quantifier": "all square coefficient arrays of every size, all points and origins", "why_tests_cant": "Every polynomial degree; row/column mix-ups are invisible for symmetric or diagonal test coefficients.", "anchors": ["src/polynomialSurface.cpp: horner, horner2d, sag, normal", "batoid/surface.py: Zernike"]}
{"id": "C18", "title": "Aspheres are the conic plus the even polynomial with the documented powers", "statement": "Asphere(R, conic, coefs, imin).sag(x,y) is the conic sag plus the sum over i of coefs[i]*r^(2*(i+imin)), with r^2 = x^2+y^2, and the slope used for its normal is the exact derivative of that sag.", "quantifier": "all radii, conics, coefficient lists of every length, all points in the domain, all imin", "why_tests_cant": "Any number of coefficients; an off-by-one exponent is only visible with several non-zero terms at r different from 1.", "anchors": ["src/asphere.cpp: Asphere::sag, normal, computeDzDrCoefs", "batoid/surface.py: Asphere"]}
{"id": "C19", "title": "Bicubic tables interpolate their data smoothly", "statement": "At every grid node outside the last row and column (which count as outside the grid) the bicubic sag and slopes equal the tabulated ones; with the default slopes a bilinear function is reproduced exactly; along a shared cell edge the two cells give the same sag and slope, so the surface is continuously differentiable inside the grid; outside the grid the result is NaN (nanpolicy 'nan') or 0 ('zero').", "quantifier": "all grids, all tabulated values and derivatives, all points in and out of the grid", "why_tests_cant": "Continuity across every cell boundary for every table.", "anchors": ["src/table.cpp: oneDSpline, oneDGrad, Table::eval, Table::grad", "src/bicubic.cpp", "batoid/surface.py: Bicubic"]}
{"id": "C20", "title": "Flags are sticky and failed rays are left alone", "statement": "No tracing operation (intersect, reflect, refract, refractScreen, rSplit, obscure, trace of any optic in either direction) ever clears a vignetted or failed flag, and a ray that is already failed keeps its position, velocity, time, flux and wavelength.", "quantifier": "all optics, all histories of operations, all rays, every arithmetic", "why_tests_cant": "All histories over all optics.", "anchors": ["src/batoid.cpp: obscure, intersect, reflect, refract, rSplit, refractScreen", "batoid/optic.py: Interface.trace, CompoundOptic.trace"]}
{"id": "C21", "title": "Failed implies vignetted", "statement": "Starting from rays in which every failed ray is vignetted (as all generators produce), after any sequence of tracing operations every failed ray is vignetted, so code that drops vignetted rays drops failed ones.", "quantifier": "all operation histories", "why_tests_cant": "Invariant over unbounded histories.", "anchors": ["src/batoid.cpp: intersect, reflect, refract, rSplit", "batoid/optic.py: CompoundOptic.traceSplit"]}
{"id": "C22", "title": "Tracing keeps the number, order and wavelength of rays, and never creates flux", "statement": "No tracing operation changes the number or order of rays or any wavelength; without a coating flux is unchanged; with coatings whose coefficients lie in [0,1] no ray's flux grows.", "quantifier": "all optics, all rays, all histories", "why_tests_cant": "Unbounded histories and systems.", "anchors": ["src/batoid.cpp", "src/coating.cpp", "batoid/optic.py"]}
{"id": "C23", "title": "Rays are independent of each other", "statement": "Tracing a concatenation of ray bundles gives the concatenation of the traced bundles; tracing a slice, a single ray or a permutation gives the same slice, ray or permutation of the traced bundle.", "quantifier": "all optics, all bundles of every size, every arithmetic", "why_tests_cant": "Bundle sizes are unbounded.", "anchors": ["src/batoid.cpp", "batoid/optic.py: trace", "batoid/rayVector.py: concatenateRayVectors, __getitem__"]}
{"id": "C24", "title": "The result does not depend on the number of threads or the schedule", "statement": "Provided the arrays of the bundle do not overlap, executing the loop iterations of any tracing kernel in any order, or split over any number of threads with any interleaving of their individual memory reads and writes, ends without a data race and leaves exactly the same ray arrays as running them in index order, with every other memory cell untouched; only the floating-point rounding of the sumAmplitude reduction may differ, and its exact value does not.", "quantifier": "all interleavings of per-ray iterations, all thread counts, all bundle sizes", "why_tests_cant": "The number of schedules is exponential; tests see a handful.", "anchors": ["src/batoid.cpp: omp parallel for loops", "src/rayVector.cpp: sumAmplitude reduction", "batoid/global_vars.py: max_threads"]}
{"id": "C25", "title": "A compound optic traces its interfaces in order, however they are nested", "statement": "trace on a compound optic equals tracing its non-skipped interfaces one after another in depth-first order (reverse order, each in reverse, for reverse=True); regrouping the items into sub-assemblies does not change the result; the returned rays are in the frame of the last interface traced.", "quantifier": "all optic trees of any depth and width, all rays", "why_tests_cant": "Trees of unbounded depth.", "anchors": ["batoid/optic.py: CompoundOptic.trace, Interface.trace"]}
{"id": "C26", "title": "The full trace is the trace, step by step", "statement": "traceFull leaves its input unchanged; it lists one entry per interface met, in order; each entry's incoming rays are the previous entry's outgoing rays; the last outgoing rays equal what trace returns.", "quantifier": "all optic trees, all rays, both directions", "why_tests_cant": "All trees; dictionary key collisions only appear for particular names.", "anchors": ["batoid/optic.py: Interface.traceFull, CompoundOptic.traceFull"]}
{"id": "C27", "title": "Tracing along a path follows the path", "statement": "trace(path=p) visits the named interfaces in the order of p; for the natural order (two or more distinct interfaces) it equals the ordinary trace; traceFull(path=p) ends in the same rays as trace(path=p), with as many entries as the path is long.", "quantifier": "all optic trees with unambiguous names, all paths", "why_tests_cant": "All path lengths and orders.", "anchors": ["batoid/optic.py: CompoundOptic.trace(path), traceFull(path)"]}
{"id": "C28", "title": "Splitting traces return only live rays and never create flux", "statement": "Every ray returned by CompoundOptic.traceSplit is un-vignetted and has flux at least minFlux. When every coating has non-negative coefficients with reflectivity + transmissivity <= 1 and reflectivity <= rho, and the input rays are vignetted or un-failed with non-negative flux, the total flux of the rays returned in both directions is at most the flux put in, no ray gets brighter than the brightest input, and rays sent back carry at most the fraction rho of it. When rho < 1 and minFlux > 0 the call terminates. It does not terminate in general with minFlux = 0 or for an input ray flagged failed but not vignetted, and a skipped item inside raises TypeError.", "quantifier": "all optic trees nested to any depth, coatings, ray bundles, thresholds and number types (liveness); all trees with passive coatings over the reals (flux, termination)", "why_tests_cant": "The work-list algorithm explores unboundedly many ghost paths.", "anchors": ["batoid/optic.py: CompoundOptic.traceSplit, Interface.traceSplit"]}
{"id": "C29", "title": "Looking up an optic by name finds that optic", "statement": "Every interface or sub-assembly is reachable under its fully-qualified name; a partially-qualified name resolves if and only if exactly one item has it as a trailing part, and then to that item; otherwise a ValueError is raised.", "quantifier": "all optic trees with dot-free names and no two siblings of the same name", "why_tests_cant": "All trees and all name collisions.", "anchors": ["batoid/optic.py: CompoundOptic.itemDict, _names, __getitem__"]}
{"id": "C30", "title": "Editing one element leaves the others alone", "statement": "withGloballyShiftedOptic, withLocallyShiftedOptic, withLocallyRotatedOptic and withSurface (and withPerturbedSurface) applied to a named element change exactly that element (and everything inside it) and leave every other element, the order and all names as they were; an unknown name is rejected with an exception.", "quantifier": "all optic trees whose assemblies are not marked skip and in which no sibling's name is the beginning of another's, all full or unambiguous partial names", "why_tests_cant": "All trees and name sets; a name-prefix collision only bites particular telescopes.", "anchors": ["batoid/optic.py: CompoundOptic.withGloballyShiftedOptic, withLocallyShiftedOptic, withLocallyRotatedOptic, withSurface"]}
{"id": "C31", "title": "Shifts and rotations of optics can be undone and accumulated", "statement": "Shifting an optic by d1 then d2 is shifting by d1+d2; shifting by d and then -d, or rotating by R and then by its inverse about the same centre, restores every coordinate system in the tree.", "quantifier": "all optic trees, all shifts, all rotations and centres", "why_tests_cant": "All trees and a continuum of motions.", "anchors": ["batoid/optic.py: withGlobalShift, withLocalShift, withGlobalRotation, withLocalRotation"]}
{"id": "C32", "title": "Moving the whole telescope together with the rays changes nothing", "statement": "If an optic with no item marked skip is shifted/rotated as a whole and the incoming rays are moved by the same rigid motion, the traced rays expressed in the local frame of the last surface are identical: same positions, velocities, times, fluxes and flags (a failed ray keeps its last coordinates, so for it only flags, time, wavelength and flux agree).", "quantifier": "all optic trees without skip flags, all sequences of shifts and rotations, all rays", "why_tests_cant": "Covariance under the whole Euclidean group for every telescope.", "anchors": ["batoid/optic.py: withGlobalShift, withGlobalRotation, trace"]}
{"id": "C33", "title": "Copies with a modification keep every other attribute", "statement": "withGlobalShift, withLocalShift, withGlobalRotation, withLocalRotation and withSurface return an optic that differs from the original only in the frame (or the surface): same media, coatings, obscuration, skip flag, names and structure.", "quantifier": "all optics, including ones whose coatings or skip flag the user has set", "why_tests_cant": "All attribute combinations.", "anchors": ["batoid/optic.py: Optic.__init__, Interface.withGlobalShift, withSurface, RefractiveInterface.__init__, Mirror.__init__"]}
{"id": "C34", "title": "Obscurations form a Boolean algebra", "statement": "contains of a negation, union and intersection is the Boolean not, or, and of the parts at every point; double negation cancels, De Morgan's laws hold, and the order or repetition of the members does not matter.", "quantifier": "all obscuration expressions of any depth, all points (including NaN coordinates)", "why_tests_cant": "All expression trees.", "anchors": ["src/obscuration.cpp: ObscNegation, ObscUnion, ObscIntersection", "batoid/obscuration.py"]}
{"id": "C35", "title": "Elementary obscurations are the documented point sets", "statement": "ObscCircle is the open disk, ObscAnnulus the half-open annulus (inner edge in, outer edge out), ObscRectangle the rectangle of the given width, height, centre and rotation angle, ObscRay the half-infinite strip of the given width, centre and angle.", "quantifier": "all parameters and all points", "why_tests_cant": "Rotated shapes at every angle and every boundary point.", "anchors": ["src/obscuration.cpp: ObscCircle, ObscAnnulus, ObscRectangle, ObscRay", "batoid/obscuration.py"]}
{"id": "C36", "title": "Polygon membership is a property of the polygon, not of how it is listed", "statement": "ObscPolygon.contains gives the same answer whichever vertex the list starts from and in whichever direction it runs; it equals the parity of edge crossings of a horizontal ray from the point; for a rectangle it agrees with ObscRectangle away from the border.", "quantifier": "all vertex lists of any length, all points", "why_tests_cant": "All polygons, all rotations of the vertex list.", "anchors": ["src/obscuration.cpp: ObscPolygon::contains"]}
{"id": "C37", "title": "Grid membership agrees with point membership", "statement": "ObscPolygon.containsGrid(x, y)[i,j] equals contains(x[j], y[i]) for every grid.", "quantifier": "all polygons and all grids, square or not", "why_tests_cant": "All polygons and grid shapes.", "anchors": ["src/obscuration.cpp: ObscPolygon::containsGrid", "batoid/obscuration.py: ObscPolygon.containsGrid"]}
{"id": "C38", "title": "Field-angle projections are invertible and give unit directions", "statement": "For each of the six projections, fieldToDirCos returns a unit vector pointing downwards (negative z) and dirCosToField recovers (u,v) from it, for every field angle in the projection's domain; (0,0) maps to (0,0,-1); an unknown projection name is rejected.", "quantifier": "all field angles in each projection's domain, all six projections", "why_tests_cant": "A continuum of angles; errors of sign or at the pole hide from sampling.", "anchors": ["batoid/utils.py: gnomonicToDirCos, postelToDirCos, zemaxToDirCos, stereographicToDirCos, lambertToDirCos, orthographicToDirCos, fieldToDirCos, dirCosToField and inverses"]}
{"id": "C39", "title": "Hexapolar grids have the promised rings", "statement": "hexapolar returns nrad rings with radii evenly spaced from outer to inner, every ring with a positive multiple of kfold points (exactly one point if the innermost radius is 0), never more than naz points unless kfold is larger, points evenly spaced in azimuth, and x, y on the circle of that radius.", "quantifier": "all outer > 0, inner >= 0, nrad (at least 2 if inner = 0), naz >= 0, kfold >= 1", "why_tests_cant": "All parameter combinations, including tiny rings.", "anchors": ["batoid/utils.py: hexapolar"]}
{"id": "C40", "title": "Ray grids have the requested number, spacing and centring", "statement": "asGrid with scalar sizes and exactly two of nx, dx, lx returns nx*ny rays aimed at a rectangular grid with the requested spacing or length, row by row, with the point at index (ny//2)*nx + nx//2 at the stop centre (even and odd sizes); anything but two of the three is rejected; nrandom rays stay inside the rectangle; asFan returns the two central lines of the grid.", "quantifier": "all nx, ny >= 1 (not 2 when dx is given), dx, lx, scalar; vector sizes give the lattice with the transposed matrix (with lx alone, squares turned the other way)", "why_tests_cant": "All parities and sizes.", "anchors": ["batoid/rayVector.py: RayVector.asGrid, RayVector.asFan", "batoid/analysis.py: huygensPSF, wavefront chief-ray index"]}
{"id": "C41", "title": "Generated rays form a plane wave that would hit the requested stop points", "statement": "fromStop / asGrid / asPolar / asSpokes return rays that all have the direction dirCos and speed 1/n, time 0, lie on one plane perpendicular to the direction at distance backDist behind the stop frame's origin, and whose straight continuation passes through the requested points of the stop surface.", "quantifier": "all directions (not along x), indices, stop surfaces, frames and points", "why_tests_cant": "All directions; degenerate directions (along x) are singular.", "anchors": ["batoid/rayVector.py: RayVector._finish, fromStop, asGrid, asPolar, asSpokes", "src/batoid.cpp: finishParallel"]}
{"id": "C42", "title": "Rays from field angles share one stop point", "statement": "fromFieldAngles returns, for each field angle, a ray with the direction of that field angle and speed 1/n that passes through the given stop point backDist later.", "quantifier": "all field angles, indices, stop points, backDist", "why_tests_cant": "Continuum of parameters.", "anchors": ["batoid/rayVector.py: RayVector.fromFieldAngles"]}
{"id": "C43", "title": "Lattice coordinates follow the documented index formula", "statement": "Lattice.coords[i1,...,id] = sum over k of (ik - Nk//2) * primitiveVectors[k] in every dimension; index N//2 is the origin; an array whose dimension does not match is rejected.", "quantifier": "all dimensions, sizes (odd and even) and primitive vectors", "why_tests_cant": "All dimensions and parities.", "anchors": ["batoid/lattice.py: primitiveToLattice, Lattice"]}
{"id": "C44", "title": "Indexing a RayVector follows Python sequence rules", "statement": "rv[i] is the single ray number i for 0 <= i < n and the ray number n+i for -n <= i < 0; other integers raise IndexError; slices start:stop select the positions Python selects and boolean masks of the right length the marked rays, in order; the result is in the same frame.", "quantifier": "all bundle sizes, all integer indices, slices with step 1, masks", "why_tests_cant": "All sizes and all negative indices.", "anchors": ["batoid/rayVector.py: RayVector.__getitem__"]}
{"id": "C45", "title": "Concatenation and copy preserve physical rays", "statement": "concatenateRayVectors of bundles expressed in one frame returns all rays of all inputs in order in that frame, so each keeps its global position and direction; copy returns a bundle with the same columns and frame.", "quantifier": "all non-empty lists of bundles in one frame, of any sizes", "why_tests_cant": "All numbers and sizes of bundles.", "anchors": ["batoid/rayVector.py: concatenateRayVectors, RayVector.copy"]}
{"id": "C46", "title": "Equal RayVectors are interchangeable", "statement": "For bundles of one length, rv1 == rv2 holds exactly when all ten columns agree entry by entry; it is symmetric and transitive, and equal bundles in one frame trace to equal bundles through every optic.", "quantifier": "all pairs of bundles of equal length; for tracing, in one frame and with real entries", "why_tests_cant": "All pairs of bundles and all optics.", "anchors": ["batoid/rayVector.py: RayVector.__eq__", "src/rayVector.cpp: operator==", "src/dualView.cpp: operator=="]}
{"id": "C47", "title": "Tabulated media interpolate linearly between the tabulated wavelengths", "statement": "TableMedium.getN returns the tabulated index at every tabulated wavelength but the last, the linear interpolation between neighbours in between (hence a value between the neighbours), and NaN outside the table. At the last tabulated wavelength itself it reads past the end of both arrays.", "quantifier": "all tables of any length with increasing wavelengths, all wavelengths", "why_tests_cant": "All tables and the end points.", "anchors": ["src/medium.cpp: TableMedium::getN"]}
{"id": "C48", "title": "Dispersion formulas", "statement": "ConstMedium returns its constant; SellmeierMedium, SumitaMedium and Air return the square root or sum of the documented formula; Air has index above 1 and normal dispersion (index decreasing with wavelength) beyond its ultraviolet resonances in ordinary weather; a Sellmeier glass with non-negative coefficients has index at least 1 and normal dispersion beyond its resonances.", "quantifier": "all coefficient sets and wavelengths in the domain; air from 200 K to 400 K and up to ten atmospheres", "why_tests_cant": "Monotonicity over a continuum.", "anchors": ["src/medium.cpp: ConstMedium, SellmeierMedium, SumitaMedium, Air"]}
{"id": "C49", "title": "Host and device copies of ray data stay coherent", "statement": "For every sequence of constructions, in-place kernels, probes, reads and writes through the array properties, copies, rSplits and comparisons on any number of RayVectors, every value read equals the value most recently written, as if there were a single memory. On builds without a GPU this holds without condition, also for arrays kept from earlier. On GPU builds it holds when arrays obtained before a kernel are not reused, wavelength is not written, and rSplit is given only un-failed rays that hit the surface; each of these three conditions is necessary.", "quantifier": "all operation sequences over any number of RayVectors, all number types", "why_tests_cant": "Unbounded interleavings of host/device use; GPU builds are not tested in CI.", "anchors": ["src/dualView.cpp: DualView::syncToHost, syncToDevice, operator==", "src/batoid.cpp: sync calls and stores of every kernel", "src/rayVector.cpp: sync calls", "batoid/rayVector.py: properties x, y, ..., _syncToHost, copy, __getitem__"]}
{"id": "C50", "title": "Fourier-plane sampling uses the reciprocal lattice", "statement": "The lattice vectors returned for the Fourier transform of an N-point grid with primitive vectors a1, a2 satisfy ai.bj = 2 pi delta_ij / N.", "quantifier": "all non-degenerate pairs of primitive vectors", "why_tests_cant": "All lattices; symmetric ones hide sign errors.", "anchors": ["batoid/analysis.py: _reciprocalLatticeVectors, fftPSF"]}
{"id": "C51", "title": "Exit-pupil search uses the true point of closest approach", "statement": "For two non-parallel lines the point returned lies on the first line and no other point of the first line is closer to the second line; parallel lines raise ValueError.", "quantifier": "all pairs of lines", "why_tests_cant": "Minimality quantifies over all points of both lines.", "anchors": ["batoid/analysis.py: _closestApproach, exitPupilPos"]}
{"id": "C52", "title": "An optic constructed with skip=True is skipped", "statement": "An optic constructed with skip=True is left out when the compound containing it is traced.", "quantifier": "all optics and containing compounds", "why_tests_cant": "The flag is ignored by the constructor; tests that set the attribute after construction do not see it.", "anchors": ["batoid/optic.py: Optic.__init__, CompoundOptic.trace"]}
{"id": "C53", "title": "Splitting uses the coating of the side the ray comes from", "statement": "traceSplit in the forward direction splits flux with the interface's forwardCoating and in the reverse direction with its reverseCoating.", "quantifier": "all refractive interfaces with different coatings", "why_tests_cant": "Only visible with asymmetric coatings.", "anchors": ["batoid/optic.py: RefractiveInterface.rSplit"]}
{"id": "C54", "title": "Vertices for drawing a trace are the global intersection points", "statement": "getGlobalRays returns for each ray the global position where it enters the first requested surface followed by its global position on each surface up to the last requested one, and raylen is one plus the number of surfaces at which it is not vignetted, which because flags are sticky is the length of its visible prefix; unknown or mis-ordered names are rejected.", "quantifier": "all traces, rays and name ranges", "why_tests_cant": "All trace lengths and vignetting histories.", "anchors": ["batoid/optic.py: getGlobalRays"]}
{"id": "C55", "title": "Vignetting is exactly what the obscurations say", "statement": "After tracing an interface, a ray is vignetted if and only if it was vignetted before, or failed to reach the surface (or was totally reflected), or its position on the surface lies in the obscuration.", "quantifier": "all interfaces, obscurations, rays", "why_tests_cant": "All shapes and rays.", "anchors": ["batoid/optic.py: Interface.trace", "src/batoid.cpp: obscure"]}
{"id": "C56", "title": "Parsed descriptions mean what they say", "statement": "parse_obscuration, parse_surface, parse_medium and parse_optic accept exactly the descriptions whose keys are complete and known, and return the object with the listed numbers, documented defaults and subitems; media are inherited from the enclosing optic unless listed; every optic of the tree is placed, in a right-handed frame, where the x, y, z, shift, rotX, rotY, rotZ entries from the top down to it take it, the last entry acting first; 'ClearX' is the complement of 'ObscX' at every point; unknown types are rejected; reading always ends.", "quantifier": "all descriptions of any depth; frames over the reals, the rest for every number type", "why_tests_cant": "All combinations of keys and nesting.", "anchors": ["batoid/parse.py: parse_obscuration, parse_coordSys, parse_surface, parse_medium, parse_optic"]}
{"id": "C57", "title": "An OPD screen adds its delay and tilts rays by its gradient", "statement": "After refractScreen an unfailed ray is on the surface, has the same speed, its time is increased by flight time plus screen.sag(x,y), the tangential direction cosines change by exactly the screen gradient projected on the surface's tangent directions, and a flat screen of height zero changes nothing but the position; this holds whenever the tilted direction is real.", "quantifier": "all surfaces, screens and rays", "why_tests_cant": "All combinations of surface tilt and gradient.", "anchors": ["src/batoid.cpp: refractScreen", "batoid/optic.py: OPDScreen"]}
{"id": "C58", "title": "Equal objects have equal hashes", "statement": "Whenever two surfaces, media, coatings, obscurations, lattices, frames, frame changes or optics compare equal their hashes agree, so they can be used as dictionary keys, provided that nanpolicy is spelled alike in both and polygons have at least two vertices.", "quantifier": "all pairs of objects, all comparisons of numbers and all hash functions that respect them", "why_tests_cant": "All pairs, including differently spelled equal options and differently nested objects.", "anchors": ["batoid/surface.py: __eq__, __hash__", "batoid/medium.py: __eq__, __hash__", "batoid/obscuration.py: __eq__, __hash__", "batoid/coordSys.py: __eq__, __hash__", "batoid/optic.py: __eq__, __hash__"]}
{"id": "C59", "title": "Light paths are reversible", "statement": "Refracting a ray from medium 1 to 2, reversing its velocity and refracting it at the same point from 2 to 1 gives back the reversed incoming velocity; likewise for reflection. Through a whole optic of planes, spheres and paraboloids: a ray that optic.trace carries from a first to a last interface, turned round on the spot, is carried by optic.trace(reverse=True) back to the point where it met the first interface and leaves along its original line in the opposite direction, after the same travel time.", "quantifier": "all surfaces, all indices, all rays not totally reflected and not leaving at exactly grazing angle; for whole optics, any nesting and number of interfaces, any obscurations and coatings, rays that are not stopped by a continuation of a surface", "why_tests_cant": "Continuum of directions and indices.", "anchors": ["src/batoid.cpp: refract, reflect", "batoid/optic.py: trace(reverse=True)"]}
{"id": "C60", "title": "A paraboloid mirror focuses an on-axis beam to a point with equal path lengths", "statement": "Every ray parallel to the axis that reflects off Paraboloid(R) passes through the focus (0,0,R/2), and all rays of one plane wavefront arrive there at the same time.", "quantifier": "all radii of curvature, all ray heights, both directions of travel used with the surface", "why_tests_cant": "Exact stigmatism for every aperture height.", "anchors": ["src/paraboloid.cpp", "src/batoid.cpp: reflect", "batoid/optic.py: Mirror"]}
{"id": "C61", "title": "Sums of amplitudes ignore dead rays and add up over sub-bundles", "statement": "sumAmplitude over a concatenation is the sum over the parts; failed rays never contribute; vignetted rays contribute only if ignoreVignetted is false; for a single live ray it is flux times amplitude; it never exceeds the total flux in modulus.", "quantifier": "all bundles, all points and times", "why_tests_cant": "All bundle sizes and flag patterns.", "anchors": ["src/rayVector.cpp: sumAmplitude, amplitude", "batoid/rayVector.py: sumAmplitude"]}
{"id": "C62", "title": "Generators leave the caller's arrays alone", "statement": "No RayVector generator modifies the arrays passed to it: the constructor copies every array, and later changes to the rays do not reach the caller's arrays; fromStop and fromFieldAngles return the rays that belong to the argument values whatever memory they come from.", "quantifier": "all constructor arguments; fromStop and fromFieldAngles with all scalar, integer and float array arguments", "why_tests_cant": "Aliasing depends on dtype and option values.", "anchors": ["batoid/rayVector.py: RayVector.fromStop, fromFieldAngles, __init__"]}
{"id": "C63", "title": "Inserting and removing items by name", "statement": "withInsertedOptic(before, item) puts the item immediately before the named subitem and withRemovedOptic(item) takes the named subitem out; nothing else about the optic changes; an unknown name is rejected with a ValueError.", "quantifier": "all CompoundOptics without skip flag, all subitems directly inside them whose siblings' names are used only once in the tree, all names denoting the subitem, all new items", "why_tests_cant": "All trees and name sets; a nested or repeated name only bites particular telescopes.", "anchors": ["batoid/optic.py: CompoundOptic.withInsertedOptic, CompoundOptic.withRemovedOptic"]}
{"id": "C64", "title": "Gaussian quadrature spokes integrate exactly", "statement": "asSpokes(spacing='GQ') with a quadrature rule exact below degree N returns rays whose flux-weighted sums are exact moments of the annulus: sum flux*r^(2k) = pi*(1 - eps^(2k+2))/(k+1) for k < N (total flux is the area of the annulus in units of outer), and the sums of flux*r^k*cos(q theta) and flux*r^k*sin(q theta) vanish for 0 < q < spokes. Hence the flux-weighted sum of every polynomial in x and y of degree below 2N and below the number of spokes is its integral over the annulus.", "quantifier": "all inner < outer, rings, spokes, quadrature rules on [-1,1], directions, stop surfaces and optics", "why_tests_cant": "All radii, rule sizes and moments.", "anchors": ["batoid/rayVector.py: RayVector.asSpokes"]}
{"id": "C65", "title": "Equal objects are interchangeable", "statement": "Equality of surfaces and of obscurations is reflexive, symmetric and transitive wherever equality of numbers is; equal surfaces have the same sag, normal and intersections at every point, equal media the same index at every wavelength, equal obscurations obscure the same points, equal frames are the same frame.", "quantifier": "all surfaces including sums and tables, all media, all obscurations whose polygons have two or more vertices, all frames", "why_tests_cant": "All pairs of objects and all points.", "anchors": ["batoid/surface.py: __eq__", "batoid/medium.py: __eq__", "batoid/obscuration.py: __eq__", "batoid/coordSys.py: __eq__"]}
{"id": "C66", "title": "Pickling gives back the same object", "statement": "Restoring the saved state of a surface or obscuration gives an object with the same attributes, hence equal and with the same behaviour.", "quantifier": "all surfaces and obscurations their constructors can make", "why_tests_cant": "All parameter values and nestings.", "anchors": ["batoid/surface.py: __getstate__, __setstate__", "batoid/obscuration.py: __getstate__, __setstate__"]}
{"id": "C67", "title": "The order of the items of a union or intersection does not matter", "statement": "Unions, and intersections, of the same items listed in different orders compare equal and obscure the same points, namely those in any, or all, of the items, provided that items printed alike are equal.", "quantifier": "all lists of obscurations and all reorderings", "why_tests_cant": "All permutations of all lists.", "anchors": ["batoid/obscuration.py: ObscUnion, ObscIntersection"]}
{"id": "C68", "title": "Spot diagrams are measured from the stated reference", "statement": "spot returns, for exactly the rays that are not vignetted and in their order, the detector coordinates minus those of the reference: the mean of these rays ('mean', so the returned coordinates have zero mean) or the ray through the middle of the grid ('chief'); any other word silently means the detector origin. For a parabolic mirror with a detector at its focus every coordinate is 0 on axis.", "quantifier": "all optics, field angles, wavelengths, projections, grid sizes and detector frames whose non-vignetted rays are finite", "why_tests_cant": "All optics and grids; the chief ray index differs between odd and even grids.", "anchors": ["batoid/analysis.py: spot"]}
{"id": "C69", "title": "Wavefronts are arrival times on the reference sphere", "statement": "wavefront returns, for every grid point, the mask 'vignetted' and (t0 - t)/wavelength, t being the time when the ray is at distance |sphereRadius| from the reference point on the side its direction and the sign of the radius say, t0 the mean of these times or that of the central ray; the lattice step is the pupil size over nx-1 or nx-2. So the mean (or the chief) entry is 0, and rays that pass the reference point all at one time have wavefront 0: in particular every entry is 0 for a parabolic mirror on axis. nx of 1 or 2 and any other reference word raise.", "quantifier": "all optics, field angles, radii, grid sizes of at least 3, bundles whose non-vignetted rays are inside the reference sphere", "why_tests_cant": "All optics, radii of both signs and field angles.", "anchors": ["batoid/analysis.py: wavefront"]}
{"id": "C70", "title": "Huygens PSF is the intensity of the summed waves", "statement": "huygensPSF returns the squared modulus of the sum of the waves of the non-vignetted rays at the points of the output lattice about the reference point (z = 0), entry [i,j] being at i steps along the second and j along the first lattice vector; this does not depend on the time at which waves are added. No entry exceeds the squared total flux, and the centre attains it when the rays meet in phase, as for a parabolic mirror on axis.", "quantifier": "all optics, field angles, wavelengths, lattices (scalar or vector dx), output sizes and bundles whose non-vignetted rays are finite and of the wavelength", "why_tests_cant": "All bundles; the bound is for all positions and phases.", "anchors": ["batoid/analysis.py: huygensPSF"]}
{"id": "C71", "title": "FFT PSF is the Fourier intensity of the pupil", "statement": "fftPSF returns the squared modulus of the Fourier sum of exp(2 pi i wavefront) over the non-vignetted pupil points at frequencies centred on entry n/2, n = nx*pad_factor; its total is n^2 times the number of pupil points (Parseval), each entry is between 0 and the squared number, which the centre attains for a zero wavefront. An odd nx raises IndexError.", "quantifier": "all optics and field angles with a finite wavefront, all even nx, all pad factors", "why_tests_cant": "All wavefronts and all sizes.", "anchors": ["batoid/analysis.py: fftPSF"]}
{"id": "C72", "title": "Images do not depend on where the telescope stands", "statement": "Shifting and turning a whole telescope by any sequence of withGlobalShift and withGlobalRotation calls does not change what spot, wavefront, huygensPSF, fftPSF, dkdu, drdth, dthdr, focalLength and zernikeGQ with reference='mean' return. It does change zernikeGQ with reference='chief' (the chief ray is made in the global frame), exitPupilPos (which uses the global z axis) and everything for optics without a stop surface (rays are aimed at the global origin).", "quantifier": "all optics with a stop surface, no skipped item and finite frames, all rigid motions, all field angles, wavelengths, projections, grids and least-squares and quadrature routines; a finite reference point and sphere radius where one is used", "why_tests_cant": "All optics and all motions at once; the chief reference and optics without a stop are the cases a test would have to hit.", "anchors": ["batoid/analysis.py: spot, wavefront, huygensPSF, fftPSF, dkdu, drdth, dthdr, focalLength, zernikeGQ, exitPupilPos", "batoid/optic.py: withGlobalShift, withGlobalRotation"]}
{"id": "C73", "title": "Axially symmetric optics commute with turns about the axis", "statement": "When every surface is a surface of revolution (plane, sphere, paraboloid, quadric, asphere, sums of these), every obscuration is made of circles and annuli about the axis, and every interface frame lies on the global z axis, then turning a ray about that axis or reflecting it in a plane through it turns or reflects the ray that comes out of trace and changes nothing else about it (time, flux, vignetting), and one gets through exactly when the other does. So a ray in a plane through the axis stays in that plane, and one along the axis stays on it.", "quantifier": "all such optics of any depth with any parameters, media and Newton iteration counts, both directions of tracing, all rays and all angles", "why_tests_cant": "All angles, all optics; rounding makes the test only approximate.", "anchors": ["batoid/optic.py: trace", "batoid/trace.py: intersect, reflect, refract", "src/surfaces"]}
{"id": "C74", "title": "Skewness is conserved", "statement": "Through an axially symmetric optic the moment of a ray about the axis times the refractive index, (x vy - y vx)/|v|^2 in global coordinates, is the same for the ray that comes out of trace as for the one that went in, however many mirrors and lenses it met.", "quantifier": "all optics as in C73, both directions of tracing, all rays that get through with non-zero velocity", "why_tests_cant": "All optics and all rays at once; it ties refraction, reflection, intersection and frame changes together.", "anchors": ["batoid/optic.py: trace", "src/batoid.cpp: refract, reflect, intersect"]}
{"id": "C75", "title": "A conic mirror images one focus on the other", "statement": "A ray whose line passes one focus of a conic mirror (Quadric with conic constant -e^2, e not 1) at time t leaves the mirror on a line that passes the other focus, at t plus the refractive index times the length of the major axis (or minus it, when the ray meets the mirror before reaching the first focus): every such ray is imaged perfectly and in phase. A paraboloid sends rays through its focus out parallel to its axis with a plane wavefront.", "quantifier": "all radii, eccentricities, frames, ray directions, media and positions, ellipsoids, hyperboloids and spheres, both signs of curvature, real and virtual foci", "why_tests_cant": "All rays and all conics; rounding hides small errors of the normal or of the root choice.", "anchors": ["src/quadric.cpp: sag, normal, timeToIntersect", "src/batoid.cpp: reflect", "batoid/optic.py: Mirror.interact"]}
{"id": "C76", "title": "A conic surface between media has a perfect focus", "statement": "A refracting Quadric with conic constant -(n1/n2)^2 sends every ray parallel to its axis through its far focus, all in phase; with conic constant -(n2/n1)^2 it makes rays from its far focus parallel to its axis with a plane wavefront.", "quantifier": "all radii, index pairs (ellipsoids and hyperboloids), frames, ray positions, both directions along the axis and both directions of tracing", "why_tests_cant": "All heights and index pairs; ties the refraction law, normals, intersection and time of flight together.", "anchors": ["src/batoid.cpp: refract", "src/quadric.cpp", "batoid/optic.py: RefractiveInterface.interact"]}
{"id": "C77", "title": "Confocal mirrors relay a perfect image", "statement": "Conic mirrors each of whose first focus is the second focus of the one before send every ray through the first focus of the first through the second focus of the last, and the time taken is the refractive index times a sum of signed major axes. With a paraboloid in front (Cassegrain, Gregorian) every ray along its axis ends in the one focus, all in phase when they meet the mirrors in the same order.", "quantifier": "chains of any length, any conics and frames, all rays that land on each mirror", "why_tests_cant": "All chain lengths and all rays.", "anchors": ["batoid/optic.py: CompoundOptic.trace, Mirror.interact", "src/quadric.cpp", "src/paraboloid.cpp"]}
{"id": "C78", "title": "zernikeGQ projects the wavefront on its polynomials", "statement": "Each coefficient returned by zernikeGQ is the integral over the (annular) pupil of the wavefront times the basis polynomial, divided by the area of the pupil. When the wavefront (how many waves each ray is ahead of the reference at the reference sphere, as a function of the point of the pupil the ray is aimed at) is a polynomial and the sum of the degrees is below 2N and below the number of spokes, where the Gauss-Legendre rule is exact for degree below N, the result is exact; in particular a wavefront that is a combination of the basis polynomials, orthonormal over the annulus, comes back as its coefficients, with 0 in front. Asking for more polynomials leaves the first coefficients as they are. If any ray fails the call raises ValueError. With reference 'chief' the result does not depend on the obscurations of the optic. (With reference 'mean' it does, although the documentation says the algorithm is unaffected by vignetting.)", "quantifier": "all telescopes with a plane stop, field angles, pupils, obscuration ratios, rings, spokes, bases of any degree, wavefronts, both references; independence of obscurations in every arithmetic", "why_tests_cant": "The exactness of the quadrature for all polynomials and all numbers of rings and spokes; tests compare with another numerical method to a tolerance.", "anchors": ["batoid/analysis.py: zernikeGQ", "batoid/rayVector.py: asSpokes"]}
{"id": "C79", "title": "Obscurations mark rays and do nothing else", "statement": "Tracing through an optic and through the same optic with every obscuration removed gives rays that agree in everything but the vignetted flag, in the same frame.", "quantifier": "all optics of any depth, both directions, all bundles, every arithmetic including double precision", "why_tests_cant": "All optics and rays; a test checks one telescope.", "anchors": ["batoid/optic.py: Interface.trace, CompoundOptic.trace", "batoid/trace.py: obscure"]}
{"id": "C80", "title": "drdth, dthdr and focalLength", "statement": "drdth returns the four averages, over the rays that are not vignetted at the nominal field angle, of the distance each ray of the hexapolar bundle moves on the last surface when the field angle changes by 1e-5 in x and in y, divided by 1e-5; so when all rays move by one matrix applied to the change of the angle, it returns that matrix. When no ray is left the result is NaN. dthdr returns the two-sided inverse of that matrix, or raises LinAlgError when the determinant is 0. focalLength is the non-negative square root of the determinant, and NaN when the determinant is negative, which happens when the axes of the last surface see the image with reversed parity: the same optic seen from the other side of its screen has focal length 3 or NaN. Errors of drdth pass on unchanged.", "quantifier": "all telescopes, field angles, wavelengths, numbers of rings and projections; errors in every arithmetic", "why_tests_cant": "All optics and bundles; tests compare one telescope with a finite difference to a tolerance and only for screens of one parity.", "anchors": ["batoid/analysis.py: drdth, dthdr, focalLength"]}
{"id": "C81", "title": "exitPupilPos finds where the chief ray crosses the axis", "statement": "For an optic that is rotationally symmetric about the z axis, exitPupilPos traces chief rays in four directions and returns the point of the axis that each of the four emerging lines passes through; when the emerging chief ray is parallel to the axis it raises ValueError.", "quantifier": "all axially symmetric optics of any depth, stops, angles, projections and wavelengths for which the chief ray gets through", "why_tests_cant": "All symmetric optics; the function approximates by least distance of lines and tests check one telescope to a tolerance.", "anchors": ["batoid/analysis.py: exitPupilPos", "batoid/optic.py: trace"]}
{"id": "C82", "title": "doubleZernike projects the Zernike coefficients over the field", "statement": "When the coefficients that zernikeGQ returns at the field points of the quadrature are polynomials of the field position, entry (k, j) of the result of doubleZernike is the integral over the field disc of the k-th basis polynomial times the j-th coefficient, divided by pi, provided the degrees add up to less than 2N and less than the number of spokes. If the wavefront at each field point is a combination of pupil polynomials whose coefficients are combinations of field polynomials, orthonormal each over its own disc or annulus, the matrix of these coefficients comes back, with a first row and a first column of zeros.", "quantifier": "all telescopes, fields, rings, spokes, bases of any degree, both references", "why_tests_cant": "Exactness for all polynomial dependences on pupil and field; a numerical test sees one telescope to a tolerance.", "anchors": ["batoid/analysis.py: doubleZernike, zernikeGQ"]}
{"id": "C83", "title": "zernike returns the least-squares fit to the wavefront", "statement": "The result of zernike is 0 followed by the only coefficients for which the sum, over the rays that are not vignetted, of the squared difference between the combination of the polynomials at the point of the stop the ray was aimed at (in units of half the pupil size) and the wavefront in waves is least. When several combinations fit equally well, that is, when some combination vanishes at all these points, it raises RuntimeError. In particular a wavefront that is a combination of the polynomials at these points comes back.", "quantifier": "all telescopes with a plane stop, field angles, wavelengths, grids of at least 3 by 3, both references, any basis", "why_tests_cant": "Optimality quantifies over all competing coefficient vectors.", "anchors": ["batoid/analysis.py: zernike"]}
{"id": "C84", "title": "zernikeXYAberrations and zernikeTA fit ray aberrations", "statement": "zernikeXYAberrations returns, each with 0 in front, the only least-squares fits to the x and to the y displacement of the rays of the hexapolar bundle from the reference point (mean or chief), over the rays that are not vignetted or, on request, over all rays. zernikeTA returns, behind two zeros, the coefficients in waves of the wavefront whose slopes times minus the focal length fit both displacements best. Either raises RuntimeError when the fit is not unique. Displacements that are the slopes of a combination give back its coefficients.", "quantifier": "all telescopes with a plane stop, bundles, references, bases, wavelengths, focal lengths given or computed", "why_tests_cant": "Optimality quantifies over all competing coefficient vectors.", "anchors": ["batoid/analysis.py: zernikeTA, zernikeXYAberrations, _dZernikeBasis"]}
{"id": "C85", "title": "dkdu is a fit, and it sets the scale of the images", "statement": "dkdu returns, row by row, the slopes in x and in y of the only affine functions of the position of a ray on the launch plane that fit the x and the y components of the final wave vectors best, over the rays that are not vignetted; components that are affine functions of this position are reproduced exactly. When dkdu is diagonal, one step of the lattice of fftPSF, and of huygensPSF without dx, is 2 pi over the number of points times the pupil step times the diagonal entry, so that neighbouring image points differ in phase by one n-th of a turn between neighbouring pupil points. When an off-diagonal entry is not zero the lattice is not this reciprocal lattice.", "quantifier": "all telescopes, bundles, wavelengths, sizes and padding factors", "why_tests_cant": "Optimality over all competing fits, and all pairs of lattices; the tests only look at telescopes whose dkdu is diagonal.", "anchors": ["batoid/analysis.py: dkdu, fftPSF, huygensPSF, _reciprocalLatticeVectors"]}
{"id": "C86", "title": "Rays stay perpendicular to their wavefronts", "statement": "Take any family of rays of one wavelength that depends differentiably on a parameter and follow it through any tree of optics with optic.trace, forwards or backwards, through mirrors, refracting surfaces, lenses, detectors, baffles and OPD screens of any smooth shape, in any frames. The rate at which the time changes along the family, less the rate at which a wave travelling along the ray would reach the neighbouring positions, is the same after the trace as before it. So rays that were perpendicular to the wavefronts (plane waves and point sources are) come out perpendicular to them, and the times that optic.trace accumulates are consistent with the directions it computes. OPD screens have to be met from the side their surface normal points to, in vacuum; otherwise the bending and the delay they apply disagree and the property fails.", "quantifier": "all families of rays, all parameter values, all trees of optics of any depth and size, all smooth surfaces, all frames and media", "why_tests_cant": "It relates derivatives of positions and times over a continuum of neighbouring rays to directions; the tests compare single rays and can only take finite differences for one optic.", "anchors": ["batoid/optic.py: CompoundOptic.trace, Interface.trace, Mirror, RefractiveInterface, OPDScreen", "src/batoid.cpp: intersect, reflect, refract, refractScreen"]}
{"id": "C87", "title": "Rays of one wavefront reach a focus together, and aberrations of rays and of wavefronts agree", "statement": "If the rays of a wavefront (a plane wave, say) are traced through an optic and all of them afterwards pass through one point, they all reach this point at the same time. If rays have been stopped on a sphere about a point, as wavefront() does with the reference sphere, the slope of their times along the sphere times the remaining optical path is the distance by which the ray misses the point, component by component; so where the wavefront is flat in two directions the ray goes through the centre of the reference sphere.", "quantifier": "all optics, all families of rays on any interval of parameters, all reference spheres", "why_tests_cant": "Equality over a continuum of rays and an identity between derivatives; tests look at single telescopes with tolerances.", "anchors": ["batoid/optic.py: CompoundOptic.trace", "batoid/analysis.py: wavefront, spot", "src/batoid.cpp: intersect, reflect, refract, refractScreen"]}
{"id": "C88", "title": "Positions and velocities in double precision are right to a few units in the last place", "statement": "For rays whose coordinates and times are doubles of size at most S and whose speed components are at most 2: RayVector.propagate and RayVector.positionAtTime return positions within 13 x 2^-52 x S of the exact position of the ray, component by component, and nothing overflows. A ray carried by toCoordSys through any number N of frames with double entries, orthonormal to within tau, is still at the same place in space to within N (212 x 2^-52 + 9.3 tau) S, and its velocity in space is the same to within N (64 x 2^-52 + 3.1 tau) V; time, wavelength, flux and flags are unchanged. A ray intersected with a Plane lands within 7 x 2^-52 L of the exact intersection, with a residual height of at most 3 x 2^-52 times the distance travelled along z, and gets the arrival time within 3 x 2^-52 L. (The round trip between two frames is not exact.)", "quantifier": "all finite doubles, all frames, any number of changes of frame", "why_tests_cant": "A bound on accumulated rounding error over all inputs; tests compare at selected points with tolerances chosen by trial.", "anchors": ["src/rayVector.cpp: propagateInPlace, positionAtTime", "src/batoid.cpp: applyForwardTransform, intersect", "batoid/coordTransform.py: CoordTransform", "src/plane.cpp: timeToIntersect"]}
{"id": "C89", "title": "Reflections in double precision keep the speed", "statement": "In double precision, wherever the computed normal of a surface is finite with z component at least 1/1000 (and squares of the coordinates neither overflow nor underflow), its squared length is 1 to within 13 x 2^-52: for planes, tilted planes, spheres, paraboloids, quadrics, aspheres, polynomial surfaces, bicubics and sums. A ray reflected by any number N of such mirrors, each in its own frame (orthonormal to within tau) and with or without coatings, keeps its squared speed to within N (10 tau + 413 x 2^-52); failed rays included. (The speed is not kept exactly.)", "quantifier": "all finite doubles, all surfaces, any number of mirrors", "why_tests_cant": "A bound on the drift of the speed over all inputs and all sequences of mirrors; tests trace single telescopes.", "anchors": ["src/batoid.cpp: reflect", "src/plane.cpp: normal", "src/sphere.cpp: normal", "src/paraboloid.cpp: normal", "src/quadric.cpp: normal", "src/asphere.cpp: normal", "src/polynomialSurface.cpp: normal", "src/bicubic.cpp: normal", "src/sum.cpp: normal"]}
{"id": "C90", "title": "The \u00e9tendue is conserved and sharp images obey the cosine condition", "statement": "For rays traced through any optic (mirrors, lenses, screens and detectors in any arrangement) without being vignetted, hitting a corner or a total reflection: (1) for a family of rays depending smoothly on two parameters, the Lagrange invariant dp1.dq2 - dp2.dq1 of positions q and directions times refractive index p is the same before and after tracing, the \u00e9tendue; (2) along any path of rays the optical length measured along the positions before and after tracing differs by the change of the times of flight, and for a closed loop of rays it is the same (Poincar\u00e9's invariant); (3) if every point O(v) of a curve is imaged sharply at a point I(v), then the difference of the components of n times direction along dI and along dO is the same for all rays of the pencil: Abbe's sine condition and its relatives.", "quantifier": "all optics, all smooth families of rays, all forward and reverse traces", "why_tests_cant": "Quantifies over families of rays and their derivatives; a finite sample of rays has neither.", "anchors": ["src/batoid.cpp: intersect, reflect, refract, refractScreen", "batoid/optic.py: Interface.trace, CompoundOptic.trace"]}
{"id": "C91", "title": "Refraction in double precision restores the speed 1/n, however many surfaces", "statement": "In double precision, a ray that is refracted without failing by a surface whose computed normal is finite with z component at least 1/1000, coming in with squared speed between 1/21 and 1.5 and going from an index at most 1.97 times as large, leaves with a squared speed that is 1/n2^2 to within a relative error of 350 x 2^-52 (n2: refractive index behind the surface, between 1/2 and 5), whatever the error of its speed before. Therefore through any number of refracting surfaces, each in its own frame (orthonormal to within 1e-4), with media of index 0.9 to 4, and with or without coatings, the squared speed of the ray stays 1/n^2 to within 350 x 2^-52: unlike for mirrors (C89), the error does not grow with the number of surfaces. (The speed is not exactly 1/n.)", "quantifier": "all finite doubles, all surfaces, any number of refractions", "why_tests_cant": "A bound on rounding error over all inputs and all sequences of lenses; tests trace single telescopes and compare with tolerances chosen by trial.", "anchors": ["src/batoid.cpp: refract", "src/batoid.cpp: applyForwardTransform", "src/medium.cpp: getN"]}
{"id": "C92", "title": "The drawings of an optic show its surface between its inner and outer radius", "statement": "For an Interface whose obscuration is an ObscCircle or ObscAnnulus or the negation of one, with a surface that has a height over the annulus: draw3d draws the inner circle (if the inner radius is not zero), the outer circle and the four radii along the axes, 100 and 50 points each, and every point is the point of the surface at that place, in global coordinates; get3dmesh returns the same points with a NaN after each curve, and the ends of the radii are among them; getXZSlice returns one slice of 2n-1 evenly spaced points from -R to R when there is no hole and two slices of n points otherwise (n = nslice, or 2 for planes and 50 for the rest), projected on x and z; Lens.draw2d fills the polygon between the slices of its two surfaces. A compound optic draws its items one after the other. A shifted or rotated optic is drawn as a new one in its new frame. clearObscuration changes no drawing. (Not so: the drawing ignores the centre of the obscuration; nslice=1 fails an assertion; a lens with a hole in the front only is filled with half of the front; get3dmesh of a compound with an item without radii raises; after clearObscuration R_outer, and the drawing of a shifted copy, depend on whether R_outer was read before.)", "quantifier": "all surfaces, frames, radii, numbers of points and nestings", "why_tests_cant": "The points are compared with the surface for all surfaces and frames; the tests only call the drawing functions.", "anchors": ["batoid/optic.py: Interface.__init__, draw3d, get3dmesh, getXZSlice, clearObscuration, R_outer, R_inner", "batoid/optic.py: CompoundOptic.draw3d, get3dmesh", "batoid/optic.py: Lens.draw2d"]}
{"id": "C93", "title": "Horizon and equatorial coordinates of the app are inverse to each other and the telescope points at the drawn star", "statement": "For every star not at the zenith, nadir or a celestial pole and every latitude other than the poles: the altitude and azimuth of eq_to_az are those of the direction whose components along north, west and up are the components of the star's direction; az_to_eq returns the star of a direction; az_to_eq after eq_to_az returns the declination and, up to whole turns, the right ascension, and eq_to_az after az_to_eq returns altitude and azimuth. The optical axis of the telescope that RubinCSApp turns to (alt, az) is the direction in which it draws the star. lst lies between 0 and 360 degrees. (But lst is ahead of the Greenwich formula by more than 1.73 degrees in 2000 to 2050, since it counts centuries from the Julian day 0 instead of J2000; and at the zenith the azimuth is NaN.)", "quantifier": "all stars, places and times", "why_tests_cant": "Identities over a continuum of angles, at every quadrant; there are no tests of the app.", "anchors": ["batoid/app.py: lst, eq_to_az, az_to_eq", "batoid/app.py: get_stars_xyzs, RubinCSApp._stars_xyzs, RubinCSApp._telescope_xyz"]}
{"id": "C94", "title": "The mirror image of an optic does to the mirror images of rays what the optic does to the rays", "statement": "For each of x -> -x, y -> -y and both: let every frame, surface (tilts, polynomial coefficients, sums, phase screens) and obscuration of an optic be replaced by its mirror image, and the rays too. Then trace (forwards, backwards and along a path), traceFull and traceSplit return the mirror images of what they return for the originals, ray by ray, including failed and vignetted rays and exceptions. So an optic that is its own mirror image treats mirrored rays alike, and light in its plane of symmetry stays in that plane. (Bicubic surfaces and polygons are excepted: a polygon contains one of two opposite edges and not the other, and a bicubic surface has its first row and column of nodes but not the last.)", "quantifier": "all optics without Bicubic and ObscPolygon, all frames, paths and rays", "why_tests_cant": "A symmetry between two runs of the whole program on arbitrary trees; tests compare a few concrete systems.", "anchors": ["src/batoid.cpp: intersect, reflect, refract, rSplit, refractScreen, obscure", "src/surface.cpp: Surface::timeToIntersect", "src/polynomialSurface.cpp", "src/obscuration.cpp: contains", "batoid/optic.py: trace, traceFull, traceSplit"]}
{"id": "C95", "title": "Results do not depend on the unit of length", "statement": "For every k > 0: express all lengths of an optic (frames, radii, coefficients of the surfaces by their dimension, phase screens, obscurations) and of rays (positions, times) in a unit k times smaller, leaving velocities, wavelengths and fluxes. Then trace (forwards, backwards and along a path), traceFull and traceSplit return the same results in the new unit, including failed and vignetted rays and exceptions, if light meets every surface by a formula (planes, tilted planes, spheres, paraboloids, quadrics). For every surface, sag and normal do not depend on the unit, nor does contains for every obscuration, edges of polygons included. For aspheres, polynomials and bicubics the computed time of intersection does not depend on the unit either. (But whether the intersection fails does: the iteration is tested against 1e-12 in the caller's unit. A ray grazing a polynomial surface that meets it when all is in metres fails when all is in centimetres.)", "quantifier": "all k > 0, optics, paths and rays", "why_tests_cant": "A relation between two runs of the whole program over a continuum of scales; tests use metres only.", "anchors": ["src/batoid.cpp: intersect, reflect, refract, rSplit, refractScreen, obscure", "src/surface.cpp: Surface::timeToIntersect", "src/quadric.cpp", "src/polynomialSurface.cpp", "src/bicubic.cpp, src/table.cpp", "src/obscuration.cpp: contains"]}
{"id": "C96", "title": "Iterative intersections converge quadratically to the intersection", "statement": "For aspheres, polynomial surfaces and sums: let a ray meet the surface at time c, and let the gap between ray and surface be differentiable in time within r of c, opening at a speed of at least m that changes by at most M per unit of time, M r <= m. If the start of the iteration (the conic of an asphere, the first surface of a sum, the ray's position for polynomials) is e0 < r from c, then after n iterations the time is within e0 (M e0/m)^(2^n-1) of c, and the ray is reported as found exactly if the remaining gap is below 1e-12; rv.intersect returns it on its line at that time. With enough iterations the ray is found as closely as one likes, and there is no other intersection that near. A ray parallel to the axis is found exactly in one iteration.", "quantifier": "all such surfaces, frames, rays, numbers of iterations", "why_tests_cant": "An error bound for all rays and surfaces that meet stated conditions; tests check a few surfaces to fixed tolerances.", "anchors": ["src/surface.cpp: Surface::timeToIntersect", "src/asphere.cpp: timeToIntersect", "src/sum.cpp: timeToIntersect", "src/batoid.cpp: intersect"]}
{"id": "C97", "title": "A spherical surface images its aplanatic points perfectly", "statement": "At a refracting Sphere of radius R between the indices n1 (of the arriving light) and n2, every ray whose line goes through the point of the axis R n2/n1 beyond the centre leaves along a line through the point R n1/n2 beyond the centre, at the same time: the image is sharp and free of differences in path, at any aperture, from either side, before or behind the surface. A ray through the centre goes straight on at the new speed.", "quantifier": "all radii, indices, frames and rays that meet the surface on the half with the vertex", "why_tests_cant": "An exact identity for a continuum of rays; tests compare refraction with Snell's law at single points.", "anchors": ["src/batoid.cpp: refract", "src/sphere.cpp: timeToIntersect, normal", "batoid/optic.py: RefractiveInterface.interact"]}
{"id": "C98", "title": "The Zernike pyramid plot gives each polynomial a place of its own, centred by azimuthal index", "statement": "zernikePyramid draws one panel per row of zs, in order, exactly when the range of indices holds Z4 and Z5, and Z1 only with vdim=False (otherwise it raises KeyError or ZeroDivisionError, which the documentation does not say). Each panel is inside the grid, in the row of its radial order; no two share a cell; its colour limits are vmin and vmax, divided by the radial order with vdim. After the shift of every other row by half a column the left edge of a panel is left + (m + nmax)/2 columns for every row, so the rows are centred over each other. The numbering of the polynomials is a bijection.", "quantifier": "all numbers of polynomials, first indices, colour limits and grids of columns of equal width", "why_tests_cant": "Depends on the parities of three integers without bound; there is no test of the plot, and one would cover one size.", "anchors": ["batoid/plotUtils.py: zernikePyramid"]}
{"id": "C99", "title": "In double precision a ray is vignetted as the obscuration says, unless it passes within a few units in the last place of an edge", "statement": "Let all lengths and coordinates be doubles of size at most S (2^-400 <= S <= 2^400). If the point is further than 16 * 2^-52 * S from the edges (from the circles; from the lines through the sides of a rectangle or ray; from the sides of a polygon level with it, whose rise is not tiny), Obscuration.contains gives the answer of exact arithmetic for the same numbers, for any nesting of negations, unions and intersections; obscure then sets the flag of the ray accordingly and changes nothing else. Comparisons of doubles are those of their values. On an edge rounding decides.", "quantifier": "all obscurations, all doubles, all rays", "why_tests_cant": "The doubles near an edge are too many to try, and a test would need exact arithmetic to compare with.", "anchors": ["src/obscuration.cpp: contains (all classes)", "src/batoid.cpp: obscure", "batoid/obscuration.py: Obscuration.obscure"]}
{"id": "C100", "title": "Close to the axis of a centred system, traced rays obey Gaussian optics", "statement": "Take a family of rays that closes in on the z axis as a parameter s tends to 0, heights and slopes in proportion to s, and a list of interfaces with vertices on the axis. Traced through them (forwards or backwards, up or down), the rays close in on the axis again, and in the limit heights and index-times-slopes are those of the paraxial recipe: x' = x + p d / n between surfaces, p' = p - k (n' - n) x at a surface of vertex curvature k, with n' = -n at mirrors. The curvature is 1/R for Sphere, Paraboloid and Quadric whatever the conic constant, 1/R + 2 coefs[0] for Asphere, 0 for Plane, twice the coefficient of x^2 and y^2 for a polynomial (Zernike) surface without piston, tilt and astigmatism, and the sum of the curvatures for Sum. Through planes, spheres, paraboloids and quadrics, rays close enough to the axis do land on every surface and do not fail. It follows that the lines cross any plane at Gaussian heights, one surface images the point z0 to z1 with n'/(z1-z) - n/(z0-z) = k (n'-n), parallel light is focused at n'/(k (n'-n)) (R/2 for a mirror), two surfaces combine their powers as p1 + p2 - p1 p2 d/n, and the Lagrange invariant is kept.", "quantifier": "all centred systems of mirrors, refracting and transparent interfaces; all families of rays; all wavelengths", "why_tests_cant": "A statement about limits of rays through any number of surfaces; tests compare single rays, and the code of the repository nowhere computes the Gaussian values.", "anchors": ["batoid/optic.py: Interface.trace, Mirror.interact, RefractiveInterface.interact", "src/batoid.cpp: reflect, refract", "src/sphere.cpp, src/paraboloid.cpp, src/quadric.cpp, src/asphere.cpp: sag, normal, timeToIntersect"]}
{"id": "C101", "title": "Flat mirrors form perfect images; a stack of parallel plates keeps the direction of light", "statement": "Traced through Planes that are Mirrors, in any number and orientation, a ray that passes a point at a time passes the mirror images of the point at the same time, and its velocity is imaged likewise. So three mirrors at right angles (a corner cube) send every ray back along the opposite velocity through the opposite point; two mirrors keep the velocity component along their common line and turn a ray in the plane of their normals by twice their angle, whatever its incidence; two parallel mirrors keep velocity and shift the ray by twice their distance. Through parallel Planes that are Mirrors, RefractiveInterfaces or without effect, index times tangential direction stays; if the light ends in the index it began with, it leaves in its old direction after an even number of mirrors and in the mirrored direction after an odd number. Behind one such plane a point at height h appears at height h q1/q, with q and q1 the index times cosine of incidence on the two sides; a plate of thickness d moves what is seen through it by d (1 - q/q1) along its normal. A ray not parallel to the plane and below the critical angle does land.", "quantifier": "all numbers of planes, frames, media, rays; both directions of tracing", "why_tests_cant": "Holds for a continuum of rays and any number of surfaces; tests reflect from single planes.", "anchors": ["src/plane.cpp: timeToIntersect, normal", "src/batoid.cpp: reflect, refract", "batoid/optic.py: Interface.trace, Mirror.interact, RefractiveInterface.interact"]}
{"id": "C102", "title": "Concentric spheres keep the moment of the light about their centre", "statement": "Traced through Spheres with one common centre (Mirrors, RefractiveInterfaces or interfaces without effect on the light, any number, either direction), the moment of the slowness of a ray about the centre, (position - centre) x index times direction, stays as it is. So the ray stays in the plane through the centre that it came in, index times closest distance of its path to the centre is kept (a ball or shell in air sends light out at the distance at which it came in), and a ray's line goes through the centre afterwards exactly if it did before.", "quantifier": "all numbers of spheres, radii of either sign, frames, media, rays; both directions of tracing", "why_tests_cant": "A conserved quantity of a continuum of rays through any number of surfaces; tests refract and reflect at single surfaces.", "anchors": ["src/sphere.cpp: sag, normal, timeToIntersect", "src/batoid.cpp: reflect, refract", "batoid/optic.py: Interface.trace, Mirror.interact, RefractiveInterface.interact"]}
