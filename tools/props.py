import json
P=[]
I="include/cslibs_path_planning/"
def p(id,title,st,q,why,anchors):
    P.append(dict(id=id,title=title,statement=st,quantifier=q,why_tests_cant=why,anchors=anchors))

p("C01","Grid map cells are independent storage",
 "On a SimpleGridMap2d of w x h cells whose backing vector has at least w*h bytes (w*h < 2^32), setValue(x,y,v) on an in-map cell makes getValue(x,y) return v, leaves getValue of every other in-map cell unchanged, leaves the size unchanged, and neither call ever touches memory outside the vector.",
 "every width/height, every backing vector, every in-map cell pair, every value, every history of setValue calls",
 "index arithmetic y*width+x is done in 32-bit unsigned; aliasing or overrun only shows for particular (size, cell pair) combinations, of which there are billions",
 [I+"common/SimpleGridMap2d.h: getValue, setValue, set, isInMap(int,int)"])
p("C02","Every cell has exactly one classification",
 "If the lower threshold is below the upper threshold, every in-map cell is exactly one of free, occupied, no-information: a cell whose value equals the configured no-information value is no-information whatever the thresholds; otherwise value <= lower is free, value >= upper occupied and anything between no-information. (If lower >= upper a cell can be both free and occupied.)",
 "all cell values, thresholds and no-information settings",
 "256^3 threshold/value settings times an int no-information setting; a test samples a few",
 [I+"common/SimpleGridMap2d.h: isFree, isOccupied, isNoInformation, setLowerThreshold, setUpperThreshold, setNoInformationValue"])
p("C03","Cell to point to cell round trip",
 "For a SimpleGridMap2d with positive resolution and any origin, point2cell(cell2point(c)) succeeds and returns c for each in-map cell c, and for every point at or right/above of the origin that point2cell accepts, cell2point of the returned cell is within half a cell of the point in each axis. In binary64 the same holds as long as the origin (and the point) is within 2^48 cells of the zero of the coordinates, the half cell up to a relative rounding error.",
 "all resolutions, origins, cells and points",
 "quantifies over a continuum of resolutions, origins and points",
 [I+"common/SimpleGridMap2d.h: point2cell, cell2point, isInMap"])
p("C04","A point reported inside the map and not left of or below it has a cell in the map",
 "For points not left of or below the origin, isInMap(point) is true iff point2cell(point) succeeds with an in-map cell. In general isInMap(point) only compares with the upper borders; a point it reports inside has an in-map cell (of a non-empty map) if it is less than one cell left of or below the origin, and otherwise point2cell is undefined behaviour. In binary64 the first sentence holds exactly (within 2^48 cells of zero), the border being blurred by a relative error of 2^-49, and two cells left of the origin the point is still reported inside while point2cell is undefined.",
 "all points, origins, resolutions, sizes",
 "universal over points; the failing region (points left of/below the origin) is never exercised by in-map tests",
 [I+"common/SimpleGridMap2d.h: isInMap(double,double), point2cell", "src/common/Bresenham2d.cpp: set"])
p("C05","Rotated map conversions between cells and points are inverse",
 "For RotatedGridMap2d with any rotation, origin and positive resolution: the point set with setOrigin is the outer corner of cell (0,0), the axes are turned by the rotation, cell2point is the centre of the cell, point2cell maps every point of the square of an in-map cell to that cell, so point2cell(cell2point(c)) = c. getOrigin returns the set origin in map axes; it is the set point if the map is not rotated, otherwise not in general. point2cellSubPixel is the inverse of cell2pointSubPixel if the map is not rotated, but not in general; isInMap(point) agrees with point2cell for resolution 1 and origin (0,0), but not in general; giving the map a new rotation moves its corner. In binary64 the round trip of every in-map cell still gives the cell, centres are right to a thousandth of a cell, and point2cell can err only within a thousandth of a cell of a border.",
 "all rotations, origins, resolutions, cells, points",
 "continuum of rotations/origins",
 [I+"common/RotatedGridMap2d.h"])
p("C06","Queries and writes over a RobotArea concern exactly its in-map cells",
 "For a RobotArea whose cells are set up, on every map: isAreaFree is true iff every cell of the area that lies in the map is free, isAreaOccupied iff some such cell is occupied; setAreaValue writes the value (given, or the area's own value 0) to exactly the cells of the area that lie in the map and changes no other cell; getAreaValues leaves the area as it is (a RobotArea stores no values). isAreaNoInformation is true iff no in-map cell of the area is unknown - the opposite of what its name says: an area of unknown cells gives false, an area of free cells true.",
 "all maps, all areas, all cell lists",
 "universal over area shapes and positions relative to the map border",
 ["src/common/GridMap2d.cpp: setAreaValue, getAreaValues, isAreaFree, isAreaOccupied, isAreaNoInformation", I+"common/GridMap2d.h: MapArea2d, CircleArea, LineArea, RobotArea"])
p("C07","Iterating a robot area visits exactly its cells; circle and line areas lose the first",
 "begin() followed by while(next()) getCell() visits each cell of a RobotArea exactly once, in order, and never reads outside the cell buffer. The cells of a LineArea are the discrete segment between its end points. For a CircleArea, CircleBuffer or LineArea the cell after the j-th next() is number j, counted from 0: the first cell is never visited, and the last next() that answers true leads one past the end. So no complete scan or write over a non-empty one is defined, and a query is answered exactly if a cell after the first decides it (expected: every cell visited once). The current value of a CircleBuffer is the entry with the number of the current cell; setting it changes this entry alone.",
 "all areas (centres, radii, line end points)",
 "off-by-one at the ends of the cell buffer reads adjacent heap memory which normally looks plausible in a test",
 [I+"common/GridMap2d.h: CircleArea::begin/next/getCell, LineArea::begin/next/getCell, RobotArea::begin/next/getCell"])
p("C08","Rasterised circle covers the disc and hardly more",
 "A CircleArea with a radius of r whole cells contains every cell whose centre distance is at most r, stays in the square of half side r, is symmetric to both axes, and contains with a cell all cells of the same row nearer to the vertical axis. A cell whose row is at most as far from the centre as its column is less than half a cell beyond r, and no cell is farther than 1.1 r plus one cell. It is not the raster of a disc, though: it has cells more than one cell beyond r, and it is not symmetric to the diagonals.",
 "all centres, all radii",
 "holds per octant step for every radius",
 ["src/common/GridMap2d.cpp: CircleArea::init, addHorizontalLine"])
p("C09","Bresenham iteration terminates at the end cell after max(|dx|,|dy|) steps",
 "After setGrid(map, s, e) with both cells in the map, next() returns true exactly max(|ex-sx|,|ey-sy|) times and then false for ever; the last cell is e; the first is s; value, free, occupied and no-information at each step are the map's answers for the current cell; no 32-bit signed overflow occurs for maps with sides below 2^29.",
 "all start/end cell pairs",
 "a non-terminating or overshooting error accumulator shows only for specific slopes/lengths; the set of pairs is unbounded",
 ["src/common/Bresenham2d.cpp: setGrid, next", I+"common/Bresenham2d.h: coordinates"])
p("C10","Bresenham cells are 8-connected, monotone and stay in the map",
 "Consecutive cells differ by at most one in each axis and never step back; all cells lie in the bounding box of the end points, hence in the map, so value()/isFree() never read outside the map.",
 "all start/end pairs, all steps of the iteration",
 "universal over iteration prefixes and slopes",
 ["src/common/Bresenham2d.cpp: next", I+"common/Bresenham2d.h: value, isFree, isOccupied, isNoInformation"])
p("C11","Bresenham cells follow the ideal line",
 "Every visited cell lies within half a cell (measured along the minor axis) of the straight segment from start to end.",
 "all start/end pairs, all visited cells",
 "rasterisation error bound for all slopes",
 ["src/common/Bresenham2d.cpp: next"])
p("C12","Line freedom check answers for the whole segment between in-map end points",
 "For end points in the map, Manager::isFree(sx,sy,ex,ey) is true iff every cell of the discrete segment from start to end, the start excluded, is free, and isFreeOrUnknown iff none of them is occupied. The start cell itself is never tested, and if an end point lies right of or above the map the answer is 'free' whatever the map holds.",
 "all maps and end points",
 "universal over maps and segments, including ones that leave the map",
 [I+"generic/MapManager.hpp: Manager::isFree", "src/common/Bresenham2d.cpp: setGrid, next"])
p("C13","AStar::planPath returns a valid path",
 "If planPath(start,goal) returns true, getLastPath() starts at start, ends at goal, consecutive cells are 8-neighbours, every cell other than goal is inside the map and free, and no cell is repeated. If it returns false the path is empty.",
 "all maps, all start/goal cells, any cost arithmetic (whatever rounding the floats do), any history of earlier searches",
 "universal over maps",
 ["src/a_star/AStar.cpp: planPath, search, getLastPath", "src/a_star/OpenList.cpp"])
p("C14","AStar::planPath is complete",
 "For start, goal inside the map planPath terminates and returns true iff there is an 8-connected path from start to goal whose cells other than goal are in the map and free.",
 "all maps, start/goal, any cost arithmetic",
 "negative answers require that no path exists at all; a test can only show particular maps",
 ["src/a_star/AStar.cpp: planPath, search", "src/a_star/OpenList.cpp"])
p("C15","AStar planning is independent of earlier searches",
 "The result and the path of planPath depend only on the map contents and the arguments: after any sequence of earlier planPath/setNewMap calls on the same object, planPath gives the same answer as on a new object.",
 "all finite histories of earlier calls",
 "histories are unbounded; leaks appear only for particular predecessor searches",
 ["src/a_star/OpenList.cpp: prepareNewSearch, initialize", "src/a_star/AStar.cpp: setNewMap, planPath"])
p("C16","AStar never leaves its node storage",
 "During planPath, no access outside the node array, no null parent dereference, and the open-list lookup never dereferences the end iterator, provided the map has the size the search object was created for.",
 "all maps, start/goal, cost arithmetics and histories",
 "memory errors are silent in tests; needs an invariant over all reachable open lists",
 ["src/a_star/OpenList.cpp: addNode, getNode, getFirstNode", "src/a_star/AStar.cpp: search"])
p("C17","AStar's path is at most about one unit per step longer than the cheapest",
 "With the float and double arithmetic of the code, on maps of up to 2^29 cells per side and after any history of the search object: if there is an 8-connected free path of n steps and length L from start to goal (straight steps 1, diagonal steps sqrt 2), the path returned by planPath has length at most L + 33/32 n if n <= 10000, at most L + 3/2 n if n <= 160000, and at most L + (1 + 2^(k-21)) n if 6.5 n + 17 <= 2^k, 8 <= k <= 20; with exact arithmetic at most L + n. So it is at most 65/32 times as long as the shortest path of up to 10000 steps. It need not be a shortest path: on an empty 3x2 map the search returns two diagonal steps instead of two straight ones.",
 "all maps, start/goal pairs",
 "minimality quantifies over all alternative paths",
 ["src/a_star/Node.cpp: getValue", "src/a_star/OpenList.cpp: addNode"])
p("C18","AStar::setNewMap makes any later search valid for the new map",
 "After setNewMap(m), planPath behaves as on a search object newly created for m, also when m's size differs from the size of the map before - as long as map objects in use are not resized in place. If the map in use was resized in place before setNewMap, the search may dereference a null node.",
 "all map sizes and histories of size changes, including a map object that was resized in place",
 "depends on history of sizes, and failure is memory corruption",
 ["src/a_star/AStar.cpp: setNewMap", I+"common/SimpleGridMap2d.h: set(data,w,h)"])
p("C19","Generic search returns only connected, collision-free paths",
 "A non-empty path returned by findPath starts at a start cell, ends at a cell accepted as goal, and each consecutive pair was offered by the neighbourhood and passed the freeness test; no cell repeats.",
 "all maps, neighbourhoods, heuristics, cost arithmetics, open-list policies",
 "universal over maps and expansion orders",
 [I+"generic/SearchAlgorithm.hpp: findPath, findPathImp, processNeighbor, backtrack", I+"generic/DirectNeighborhood.hpp"])
p("C20","Generic search terminates and is complete",
 "On a finite map findPath without time limit terminates, and if it returns an empty path then no path over free cells from start to goal exists.",
 "all maps, start/goal, cost arithmetic",
 "negative answers quantify over all paths; termination over all maps (nodes can be re-opened)",
 [I+"generic/SearchAlgorithm.hpp: findPathImp, processNeighbor"])
p("C21","Generic A* with an admissible heuristic returns a cheapest path",
 "With a priority set that hands out a node of least total cost and a consistent heuristic (none, L2, L-infinity, or L1 with 4 neighbours): path length plus heuristic at the last cell is least among all paths of the neighbourhood to the accepted region - exactly in exact arithmetic, and up to a factor of 1 + (w*h + 2) / 2^48 in the binary64 arithmetic of the code (less than one part in a million on a map of up to 2^28 cells), for every resolution between 2^-900 and 2^900 and a hypot accurate to two units in the last place. So without a heuristic (Dijkstra) the path is, up to that factor, a shortest one to the accepted region; with a heuristic it is, up to that factor, no longer than any path to the goal cell itself. It need not be a shortest one to the accepted region, because the goal test has a tolerance.",
 "all maps, start/goal, all consistent heuristics",
 "minimality over all alternative paths",
 [I+"generic/SearchAlgorithm.hpp", I+"generic/NodeManager.hpp: PriorityQueueManager", I+"generic/Heuristics.hpp"])
p("C22","setMap makes a generic search object as good as new",
 "After setMap, whatever the search object went through before and whatever its uninitialised members hold, findPath answers as on a newly created object. Without setMap it does not: nodes are never reset, and a second findPath may return no path although there is one.",
 "all finite histories of findPath/setMap calls",
 "stale node state shows only for particular predecessor searches",
 [I+"generic/SearchAlgorithm.hpp: init, setMap, findPath", I+"generic/MapManager.hpp: initMap"])
p("C23","Reversed search yields the path in start to goal order",
 "With reversed search, a non-empty path returned by findPath(start,goal) leads in steps of the neighbourhood, over free cells and without repeating a cell, from a cell within the goal tolerance of the start cell to the goal cell. Its first cell need not be the start cell.",
 "all maps, start/goal pairs",
 "universal over maps",
 [I+"generic/SearchAlgorithm.hpp: findPath"])
p("C24","findPath reports bad start or goal",
 "On a grid with the direct neighbourhood, for every map, history, open list and heuristic: if the start or the goal cell is occupied the result is the empty path and nothing is thrown. A start or goal right of or above the map makes OutsideMapException escape from findPath; one that lies one cell or more left of or below it (or beyond the range of unsigned) is undefined behaviour; a coordinate less than one cell below zero is taken as zero, so that the search runs as if the pose were in the first column or row.",
 "all start/goal poses",
 "universal over poses incl. negative coordinates",
 [I+"generic/SearchAlgorithm.hpp: initStartPose, initGoalPose, findPathImp", I+"generic/MapManager.hpp: lookup"])
p("C25","Neighbour offsets are exactly the 4 or 8 neighbours, each once",
 "DirectNeighborhood offers each of the 4 (8) cells at the given distance exactly once, never the cell itself, only free cells inside the map, and with delta equal to the Euclidean length of the offset (8-neighbourhood) ; isGoal holds exactly for cells within the given Chebyshev distance.",
 "all cells, distances, maps",
 "universal over cells and the map border",
 [I+"generic/DirectNeighborhood.hpp"])
p("C26","Node marks behave as independent flags",
 "mark/unMark/isMarked on a node treat OPEN, CLOSED and the other marks as independent flags: marking one never changes whether another is set.",
 "all mark values and all sequences of mark operations",
 "unbounded operation sequences",
 [I+"generic/Common.hpp: NodeMark, Node::mark, unMark, isMarked"])
p("C27","Open-list managers return what they promise",
 "In every history of add and next, QueueManager hands out the nodes in the order they were added and StackManager the last added one first, each exactly once; next is defined exactly when something is there, size is what was added and not yet handed out, clear empties both; PriorityQueueManager hands out a contained node of minimal cost if the underlying priority set keeps its contract. QueueManager::remove removes nothing.",
 "all operation sequences",
 "unbounded operation sequences",
 [I+"generic/NodeManager.hpp"])
p("C28","Intermission callback is called at the configured rate",
 "Over the life of the program the periodic callback is invoked, once per step, exactly at the steps up to the configured first step and at those a multiple of the configured interval after it. The counters are shared by all searches: a second search does not start anew.",
 "all step counts, all configured intervals",
 "state machine over unbounded step counts, also across searches",
 [I+"generic/Intermission.hpp", I+"generic/SearchAlgorithm.hpp"])
p("C29","State-space index maps are injective and in range",
 "GridMapManager and DirectionalStateSpaceManager map every in-map (x,y[,theta,forward]) to an index inside the node array, different cells/orientations/directions to different nodes, and lookup returns the node holding the requested cell.",
 "all map sizes, cells and angles",
 "index collisions show only for particular sizes and angles",
 [I+"generic/MapManager.hpp: GridMapManager, DirectionalStateSpaceManager index/lookup/angle2index"])
p("C30","Dynamic state space finds the chunk of every cell off its first row and column",
 "In DynamicDirectionalStateSpaceManager, after every history of lookups of cells of the padded area off its first row and column (coordinate -32), lookup of such a cell returns the node of that cell, heading slot and direction, and different ones get different nodes. In row or column -32 contains() says yes but lookup fails, with the map's exception or with std::out_of_range, and leaves a misplaced chunk that makes later lookups of other cells fail; hasNode looks at another chunk than lookup created: it says yes exactly if an earlier lookup touched the chunk one column left of and one row above the cell's.",
 "all cells in [-padding, w+padding) x [-padding, h+padding), all angles",
 "the chunk arithmetic differs per sign and per multiple of the chunk size",
 [I+"generic/MapManager.hpp: DynamicDirectionalStateSpaceManager contains/lookup/hasNode/initMap"])
p("C31","Exact meaning of the line checks of the dynamic state space",
 "With k cells skipped, isFree(start,end) of DynamicDirectionalStateSpaceManager is true iff the end cell and every (k+1)-th cell of the discrete segment after the start are free cells of the map; isFreeOrUnknown iff the start cell and those cells are not occupied; isOccupied iff the end cell or one of those cells is occupied - provided both end points, moved by the padding of 32 cells, lie in the map. Otherwise only the end cell (isFreeOrUnknown: the start cell) is looked at. So walls are missed: within 32 cells of the upper borders, when k is positive, and by isFreeOrUnknown at the end cell.",
 "all maps and segments",
 "universal over maps and segments, skip counters and the padding",
 [I+"generic/MapManager.hpp: DynamicDirectionalStateSpaceManager isFree/isFreeOrUnknown/isOccupied"])
p("C32","Heuristics never overestimate",
 "For 8-neighbour movement with Euclidean step cost, L2, L-infinity and no-heuristic never exceed the remaining path cost and change by at most the step cost along a step (consistency); L1 is admissible for 4-neighbour movement; the maximum of admissible heuristics is admissible. Computed in binary64, the value is finite and exceeds the length of a path to the goal by at most a factor of 1 + 2^-50. L1 overestimates with 8 neighbours, L2OverEstimate always may.",
 "all cells, goals, all paths",
 "quantifies over all paths",
 [I+"generic/Heuristics.hpp: HeuristicL2, HeuristicL1, HeuristicLInf, HeuristicMax, NoHeuristic, HeuristicL2OverEstimate"])
p("C33","Obstacle distance heuristic is the true holonomic distance inside the border",
 "Without padding, the table computed by the holonomic-obstacles heuristic holds for each cell that is neither occupied nor on the border the length of the shortest 8-neighbour path to the goal over such cells (0 if there is none), exactly and, up to the rounding of the sums, in binary64; computing it terminates. Before the table is set the value is 0. Paths along the border are not seen, so the value may exceed the true distance; with padding obstacles are looked up 32 cells off, so that a free cell may be infinitely far.",
 "all maps and goals",
 "shortest over all paths, fixpoint computed by iteration",
 [I+"generic/Heuristics.hpp: HeuristicHolonomicObstacles"])
p("C34","Distance transformation path is valid and nearly shortest",
 "For start and goal in the map the distance-transformation planner ends with a path that starts in the start cell and moves over free 8-neighbours (or the goal) without repeating a cell; it ends in the goal iff the goal can be reached over free cells inside the border, and then it is at most sqrt 2 times as long as the shortest such path. It need not be the shortest; for an unreachable goal a path that ends elsewhere is returned, not a failure; paths along the border are missed. A pose right of or above the map is refused.",
 "all maps, start/goal",
 "fixpoint iteration over unbounded maps",
 [I+"generic/DistanceTransformation.hpp"])
p("C35","Steering moves respect the steering limit and the straight-switch rule",
 "Every move offered by the steering neighbourhoods has a steering angle within the maximum, changes it by at most the given number of increments (not at all for the straight moves, to the right side for the right moves and to the left for the left ones), and changes the driving direction only with straight wheels; in the template neighbourhood the required number of nodes before the change have straight wheels, too, and the required number of moves after it keep the direction, in the non-holonomic one the heading was kept for that long. The straight stretch after a change is one move shorter than before it, is not kept by the half-step moves, and forward-only vehicles of the template neighbourhood read an indeterminate flag.",
 "all reachable nodes, all moves, all parameters",
 "invariant over unbounded move sequences",
 [I+"generic/SteeringNeighborhood.hpp", I+"generic/DynamicSteeringNeighborhood.h", I+"generic/NonHolonomicNeighborhood.hpp"])
p("C36","Steering moves are arcs of the modelled vehicle",
 "Each non-straight move is a motion along a circle whose radius is wheel_base/tan(steer): end pose heading and position satisfy the bicycle kinematics, straight moves move LENGTH along the heading; backward inverts forward.",
 "all poses, steering angles, lengths (reals)",
 "continuum of poses",
 [I+"generic/SteeringNeighborhood.hpp: advance", I+"generic/NonHolonomicNeighborhood.hpp: advance"])
p("C37","Curve pattern parser accepts exactly the pattern language",
 "The pattern parser of CurveGenerator accepts exactly the well-formed strings over its alphabet, in particular every documented string of S, R, L and |, and then appends exactly the segment and direction list the string denotes; a refused string changes nothing; it aborts exactly if a b stands in a group before the first segment. Its return value is false for accepted and true for refused strings - the opposite of the documentation.",
 "all strings",
 "infinitely many strings; parser state machine",
 ["src/ReedsShepp/CurveGenerator.cpp: parse, set_... ", I+"ReedsShepp/CurveGenerator.h"])
p("C38","Reeds-Shepp find_path returns the cheapest valid candidate",
 "Once the arc limit is set, and with no pattern that starts or ends with S: find_path returns a curve iff some candidate is valid (not blocked, arc below the limit); the returned one has minimal weight among the valid candidates, the first of equals, and none of its segments is blocked; the outcome depends on the patterns, poses, map and settings only, not on earlier calls. Patterns of other lengths than three and four, and poses nearer than two cells, never give a candidate. Until the limit is set the outcome is undefined as soon as a candidate is not blocked; a pattern that starts or ends with S aborts.",
 "all candidate lists, weights and maps",
 "universal over candidate weights; ownership errors",
 ["src/ReedsShepp/CurveGenerator.cpp: find_path", "src/ReedsShepp/Curve.cpp: is_valid, weight"])
p("C39","Iterating a curve yields all points of its segments in order",
 "From every state, after reset, iterating a curve with has_next/next yields exactly the concatenation of the points of its segments, in order, and ends - if the last segment has a point. If it has none and another segment stands before it, one default pose is appended.",
 "all curves (any number of segments, any points per segment, including empty)",
 "iterator state machine over unbounded lists",
 ["src/ReedsShepp/Curve.cpp: init, has_next, next", "src/ReedsShepp/CurveSegment.cpp"])
p("C40","Line segment weight detects every obstacle on the map",
 "LineSegment::weight is NOT_FREE iff the first cell of the rasterised segment is outside the map or one of its cells on the map is not free; otherwise it is the length (or the sum of the cell costs) times the cost factors. The raster leads from the first to the last cell in king's moves and stays within half a cell of the ideal line. Cells off the map after the first are ignored: a line that leaves the map is not blocked for that.",
 "all maps and segments",
 "universal over maps/segments",
 ["src/ReedsShepp/LineSegment.cpp: weight, next_point, has_next_point"])
p("C41","Circle segment weight detects every obstacle on the rasterised arc",
 "For radii of at least one cell, CircleSegment::weight is NOT_FREE iff a cell of the rasterised arc is not free or a cell of the whole rasterised circle is outside the map; otherwise it is the length (or the sum of the costs of the arc's cells, each counted once) times the cost factors. The cells tested are those of a ring one cell thick around the truncated centre whose direction is on the arc. So an arc that stays in the map is blocked if the rest of its circle leaves it, and, centre and radius being truncated, an arc through an occupied cell may pass.",
 "all maps, arcs",
 "universal over maps/arcs",
 ["src/ReedsShepp/CircleSegment.cpp: weight, checkCircle, testPixel"])
p("C42","Arc length and direction of a circle segment",
 "compute_arc_length yields the sweep whose sign agrees with the turn direction (left xor backward is anticlockwise), in [0, 2 pi) anticlockwise and in [-2 pi, 0) clockwise; it is the only such angle, and following it from the start point ends in the end point; the way-points lie on the circle one step apart with the vehicle's heading. Equal start and end angle mean an empty arc anticlockwise and a full circle clockwise; an arc shorter than one step is overshot.",
 "all centres, radii, start/end points, directions (reals)",
 "continuum of angles, branch cuts of atan2",
 ["src/ReedsShepp/CircleSegment.cpp: compute_arc_length, next_point"])
p("C43","Line geometry laws",
 "For lines of non-zero length, exact arithmetic: footPoint is on the line and minimises the distance; the signed distance has the magnitude of that distance, is positive exactly left of the line and zero exactly on it; parallel yields a line of the same direction at the requested offset; nearestPointTo is within the tolerance of a segment point and at least as near as every segment point; toPoints/toPoses yield points on the segment in order with the requested spacing; a line built from a pose starts (backward: ends) there along its heading; select*Point accepts points of the line and otherwise changes nothing. Off the line the tolerances are not distances, toPoses with the start pose leaves one element unwritten, and isIdentical takes headings that differ in the negative direction for equal.",
 "all lines and points (reals)",
 "continuum",
 ["src/geometry/line.cpp", I+"geometry/line.h"])
p("C44","Circle/arc geometry laws",
 "Exact arithmetic: the constructor and every history of setting start, end and arc angle keep the angles in [0, 2 pi], terminate and keep centre, radius and direction; setStartAngle moves the start and keeps the end, setEndAngle the other way round; arcs created from or to a pose (radius not negative) start or end there with its heading; toPoses produces points on the circle with tangent headings from start to end, evenly spaced; isPointOnArc accepts only points within the tolerance of a swept point, and every swept point except possibly at angle 0; nearestPointTo returns a nearest point of the arc. setArc does not normalise, a negative radius gives an arc elsewhere, toPoints forgets the centre, isPointOnArc misses end points at angle 0, and in binary64 the normalisation of large angles does not terminate.",
 "all circles, angles (reals)",
 "continuum, normalisation loops",
 ["src/geometry/circle.cpp", I+"geometry/circle.h"])
p("C45","Intersector returns exactly the intersection points, up to the tolerance",
 "With exact arithmetic and centres at least the tolerance apart, the intersection of two circles has at most two points; no point or two points are exactly the common points; a single point is within 3/2 of the tolerance of both circles, and unless the circles touch from outside within the tolerance every common point is within the tolerance of it. For arcs every point lies on both arcs within 1e-5 of them, and common points of the arcs are kept unless they lie at angle zero where the arc starts or ends. The intersection of a line segment with the full circle is exactly the set of common points whenever the discriminant is at least the squared tolerance in size; below it at most one point is returned, on the segment, whose squared distance to the centre is off by less than tol^2/(4 len^2). Limits: an outer contact within the tolerance reports one point where the circles cross in two; such a contact at an end of a segment is lost; the extent of an arc is ignored by the line intersection; circles with centres nearer than the tolerance leave the previous content of the result untouched.",
 "all circles/lines (reals)",
 "continuum incl. tangency and concentric cases",
 ["src/geometry/intersector.cpp"])
p("C46","Tangents touch the circles they were asked for",
 "With exact arithmetic and away from the tolerance: the circles and arcs of the Tangentor between a line and a circle touch both, start and end at the touching points and drive on smoothly, and the shortest such path is returned exactly when one exists (in both directions). Arcs between two circles touch the one from outside and the other from inside; the path from the large to the small circle runs over such an arc of at most half a turn, is always found between whole circles that have a joining circle, is smooth at the large circle, and at the small circle smooth if the circles turn in opposite directions and a reversal if not (this is not checked). A path from the small to the large circle is never found, and tangentInnerArcs overlooks arcs that pass the angle zero of their circle. The lines and circles of the Reeds-Shepp geometry helper touch the circles they join.",
 "all circles/lines (reals)",
 "continuum",
 ["src/geometry/tangentor.cpp", "src/ReedsShepp/GeometryHelper.cpp"])
p("C47","Centroid goal region produces the documented goals",
 "After init(n), n positive, CentroidRadiusGoalRegion delivers exactly n goals (one if there is no opening angle) and then reports exhaustion for ever; every goal is radius away from the centre and looks at it, the approach directions are evenly spread over the opening angle, symmetrically around the direct line from the source. The gain of the k-th of n goals, counted from 0, is 1 + 2|k + 1 - n div 2|/n: not the documented 1.0 for the direct approach and 2.0 for the largest angle; init(0) gives one goal.",
 "all sample counts, points, radii, angles (reals) and call histories",
 "counter state machine for every count; continuum of angles",
 ["src/sampling/CentroidRadiusGoalRegion.cpp"])
p("C48","Ring goal region covers the ring evenly",
 "After init(n) RingGoalRegion delivers exactly n goals and then reports exhaustion; they lie at equally spaced, pairwise different directions around the centre, within half the width of the radius, tangential to the ring (counterclockwise for a positive radius, clockwise for a negative one); the gain is left alone.",
 "all counts, radii, widths and random numbers",
 "unbounded counts, all random sequences",
 ["src/sampling/RingGoalRegion.cpp"])
p("C49","Sampling planner returns the cheapest goal's path",
 "SamplingPlanner::createPath returns a path iff some in-map goal of the region has a valid curve with gain * weight below 999999; the returned one minimises gain * weight over all goals, the first of equals; it ends if the region does, all other candidate paths are released exactly once, and a start outside the map gives nothing. A reachable goal with gain * weight of 999999 or more is never returned.",
 "all goal regions and weights",
 "universal over goal lists",
 ["src/sampling/SamplingPlanner.cpp"])
p("C50","Rounding helper rounds to nearest, half away from zero",
 "TmpMath::round returns the nearest integer, ties away from zero, for every finite double below 2^31 - 1 in magnitude except the two values next to +-1/2 towards zero, +-0.49999999999999994, which it rounds to +-1.",
 "all doubles in int range",
 "boundary doubles",
 [I+"common/TmpMath.hpp"])
p("C51","pos2map and map2pos are inverse",
 "MapMath pos2map and map2pos are mutually inverse for every position, map origin and orientation; in binary64 up to a relative rounding error of 2^-49 of the coordinates (within 2^48 cells of zero).",
 "all poses (reals)",
 "continuum",
 ["src/common/MapMath.cpp"])
p("C52","Point algebra",
 "Point2d/Pose2d operations satisfy the vector-space laws; rotate is an isometry composing additively; ortho is perpendicular with the same length; resize gives the requested length.",
 "all points, angles (reals)",
 "continuum",
 ["src/common/Point2d.cpp", "src/common/Pose2d.cpp"])
p("C53","Exact meaning of the collision map's queries with orientation",
 "CollisionGridMap2d::isFree(x,y,theta) is true iff (x,y) is a free cell and every in-map cell of the table chosen for theta, moved to (x,y), is free; isOccupied iff the cell or one of those cells is occupied; isNoInformation is inverted: it is true iff the cell is not occupied and each of those cells HAS information; cells off the map do not count, and off the map all three are false. The cells of every table lie under the footprint and include its corners. But the tables are not the footprint: obstacles straight ahead are not seen, the table belongs to another orientation than theta, and with doubles a huge theta makes the query loop for ever.",
 "all maps, footprints, cells, orientations",
 "universal over maps/footprints",
 ["src/common/CollisionGridMap2d.cpp"])
p("C54","Oversearch and goal candidates return the best candidate found",
 "With several goal candidates/oversearch the result is a candidate with minimal cost among those found before the search stopped.",
 "all candidate sequences",
 "universal over expansion orders",
 [I+"generic/SearchAlgorithm.hpp: findPathImp"])
p("C55","Way-points of a curve are evenly spaced on the segment",
 "The way-points of a segment of a Reeds-Shepp curve lie on the segment (for arcs at least one step long), start at its start, carry the vehicle's heading there and are evenly spaced: on arcs by the configured distance, measured along the arc; on a line of length d by d divided by the number of whole distances in d. So on a line they are farther apart than the configured distance, less than twice as far, unless d is a multiple of it; and an arc shorter than one step is overshot.",
 "all segments, radii and way-point distances",
 "universal over real-valued geometry",
 ["src/ReedsShepp/LineSegment.cpp: reset_iteration, next", "src/ReedsShepp/CircleSegment.cpp: compute_arc_length, next"])
p("C56","A Reeds-Shepp curve is a continuous drive from start to goal",
 "Every candidate that is not reported blocked and whose neighbouring circles turn in different directions starts in the start pose, ends in the goal pose, and has neither a jump in position nor in heading where two segments meet. Patterns with two neighbouring circles of the same direction (LLL) are accepted with a heading jump, and a pattern C S C may be refused although a curve of that pattern exists, when the circles overlap.",
 "all start/goal poses, radii and patterns",
 "universal over real-valued geometry",
 ["src/ReedsShepp/Curve.cpp: check_if_admissible, init_segments, handle_sequence", "src/ReedsShepp/GeometryHelper.cpp"])
p("C57","Vehicle goal test accepts exactly the poses near the goal",
 "A pose is accepted as the goal iff its heading is within the threshold of the goal heading (modulo full turns) and its position is within the documented distance: half a step (simple neighbourhood), the configured threshold (dynamic), 5 cm or within 10 cm of the straight connection to its predecessor (template).",
 "all goal and vehicle poses, resolutions, thresholds (reals)",
 "continuum of poses; angles wrap around",
 [I+"generic/NonHolonomicNeighborhood.hpp: isGoal", I+"generic/SteeringNeighborhood.hpp: isGoal", I+"generic/DynamicSteeringNeighborhood.h: isGoal"])
p("C58","Pose list region delivers the listed poses",
 "After init PoseListGoalRegion delivers exactly the poses of its list in order, with the listed gains if they are enabled and as many as the poses, otherwise leaving the gain alone; then it reports exhaustion.",
 "all lists and gains",
 "unbounded lists",
 ["src/sampling/PoseListGoalRegion.cpp"])
p("C59","A vehicle search returns a path the vehicle can drive",
 "With exact arithmetic, in the first search after setMap: a non-empty path returned by findPath with a steering neighbourhood starts at the start, repeats no cell, heading slot and direction, and drives only in the enabled directions. Without a heuristic and with the priority order every pose results exactly from the pose before it by one of the moves of the vehicle model (in reverse order if the search runs from the goal). With any heuristic and open-list order this holds up to the pose kept for a cell, heading slot and direction: a slot that is reached again changes its pose and keeps its children, and with a queue as open list a path with two consecutive poses that no move connects is really returned.",
 "all maps, vehicles, options, start and goal poses, heuristics, open-list orders, time limits",
 "unbounded searches over a continuum of poses; nodes are shared by all poses of a slot",
 [I+"generic/SearchAlgorithm.hpp: findPath, processNeighbor, backtrack", I+"generic/SteeringNeighborhood.hpp", I+"generic/DynamicSteeringNeighborhood.h", I+"generic/MapManager.hpp: DynamicDirectionalStateSpaceManager"])
p("C60","A vehicle search ends near the requested pose",
 "With DynamicSteeringNeighborhood the last pose of a non-empty path is closer to the requested goal position than the goal distance plus a cell diagonal, and its heading is within the goal angle of the requested heading or else within the goal angle and half a heading slot of heading 0; with SteeringNeighborhood it passes the fixed thresholds (5 cm, or 10 cm beside the last connection, and 22.5 degrees) to a goal within a cell diagonal of the requested one, with the requested heading or one within half a slot of 0. The requested heading is not always honoured: the goal may be accepted with heading 0.",
 "all maps, vehicles, options, start and goal poses, heuristics, open-list orders",
 "universal over a continuum of goal poses",
 [I+"generic/SearchAlgorithm.hpp: initGoalPose, hasPoseBeenReached", I+"generic/DynamicSteeringNeighborhood.h: isGoal", I+"generic/SteeringNeighborhood.hpp: isGoal", I+"generic/Common.hpp: getPoses"])
p("C61","A vehicle search ends with a result",
 "findPath with a steering neighbourhood returns after finitely many steps, for every map, vehicle, heuristic and order of the open list; with a path (possibly empty), or with an exception because start or goal have no node or because some drive enters row or column -32, which the map counts as inside but has no nodes for. The latter happens also for start and goal on the map.",
 "all maps, vehicles, options, start and goal poses, heuristics, open-list orders",
 "termination over an unbounded continuum of poses",
 [I+"generic/SearchAlgorithm.hpp: findPathImp", I+"generic/MapManager.hpp: contains, lookup"])
p("C62","A vehicle path avoids obstacles at the cells that are looked at",
 "All poses of a returned path have nodes (lie on the map or its padding off row and column -32); the cell of every pose but the last is not occupied; and where both ends of a connection, moved by 32 cells, lie in the map, every (skips+1)-th cell of it is not occupied. Other connections are not looked at: on maps of at most 32 columns a path leads straight through a wall.",
 "all maps, vehicles, options, start and goal poses, heuristics, open-list orders",
 "universal over maps and paths",
 [I+"generic/MapManager.hpp: isFreeOrUnknown", I+"generic/DynamicSteeringNeighborhood.h: iterateFreeNeighbors", I+"generic/SteeringNeighborhood.hpp: iterateFreeNeighbors"])
p("C63","A vehicle search starts at the requested cell and only between unoccupied cells",
 "A non-empty path starts at the corner of the cell of the requested start, within a cell diagonal of it, with the requested heading (if start and goal do not share the cell); neither the start nor the goal cell is occupied. An occupied start gives an empty path, not the documented exception; if start and goal share a cell the only pose has the heading of the goal.",
 "all maps, vehicles, options, start and goal poses",
 "universal over maps and poses",
 [I+"generic/SearchAlgorithm.hpp: initStartPose, initGoalPose", I+"generic/Common.hpp: getPoses"])
p("C64","The maze generator makes perfect mazes",
 "The first run() of a Maze with a width of at least 2 pixels, started in one of its whole rooms, ends (if rand() keeps producing all directions) without accessing anything outside its arrays; afterwards only neighbouring rooms are joined, between any two rooms there is exactly one route without repetition, and on a black image the white pixels are exactly the rooms and the doorways of the removed walls, are connected, and leave no other way than through the doorways.",
 "all image sizes, widths, starts and sequences of random numbers",
 "unbounded image sizes and random sequences",
 [I+"evaluation/MapGenerators.hpp: Maze"])
p("C65","The space filling curve visits every room of its square once",
 "hilbert_level(n) makes one corridor through all rooms of a 2^n x 2^n square, each visited exactly once, and joins no other rooms; run() does so for the rooms (1,1) to (256,256). On a black image every walk between consecutive rooms uses their doorway, and if the rooms fit on the image the white pixels are connected.",
 "all levels, directions, start rooms, image sizes and widths",
 "unbounded recursion depth and image sizes",
 [I+"evaluation/MapGenerators.hpp: HilbertCurve"])
p("C66","Analytic expansion is tried regularly and only succeeds with a drivable, free curve",
 "The analytic expansion of a search (ReedsSheppExpansion<N, forward, backward>) never tries a curve at the first counted call, then tries one whenever as many counted calls as N, scaled by the least heuristic value seen so far relative to the first one, have passed, so that no N counted calls in a row pass without an attempt; a call counts if the node drives in a direction the expansion is switched on for. An attempt from a node that drives forward succeeds exactly if there is a curve of an arc, a line and an arc from the node to the goal that is not blocked and turns by less than half a circle in all; then the cheapest one is taken, the poses handed out are its way points, all marked forward, starting at the pose of the node and ending within 15 cm of the goal, and the path returned by the search is the path to the node followed by these poses. The schedule is shared by all searches of the program and never reset; nodes that drive backward use up attempts but never succeed; an expansion from a start node ends in a failing assertion.",
 "every N, all histories of calls (nodes, goals, maps, heuristic values) of the one shared instance, all maps and poses of sane size",
 "the attempt made at a call depends on the whole history of earlier calls, including those of earlier searches, and success ranges over all poses and maps",
 [I+"generic/ReedsSheppExpansion.hpp: ReedsSheppExpansion",I+"generic/SearchAlgorithm.hpp: hasPoseBeenReached, backtrack"])
p("C67","The precomputed heuristic returns the mirrored entry of its table",
 "The table tool writes, for every layer a and cell (x,y), the weight of the curve from the pose (x, y, 2 pi a / angles), or 0 if that curve is not valid. With the map set, the heuristic built from such a file depends only on the current pose as seen from the goal pose; outside the square of the table it is 0, inside it is the scaled entry of the layer of the relative heading, the column of the cell and the row at the mirrored place (dimension - y). A pose in the middle of a stored cell therefore gets the entry of the cell on the other side of the goal, poses in the row 0 and just below it read beyond the layer, a heading stored in layer k is looked up in layer k-1, an opposite heading can end in a failing assertion, a second init() leaves the old layers in use, and without setMap (which no search calls) every value is indeterminate.",
 "all tables and weights, dimensions, resolutions, poses, goals and histories of init calls",
 "tables of any size and all real poses; the value depends on which initialisation calls were made",
 ["src/ReedsShepp/CostPrecomputation.cpp: precompute",I+"generic/Heuristics.hpp: HeuristicNonHolonomicNoObstacles"])
p("C68","A search with the caller's own goal test",
 "findPath(start, test, options) on a grid asks the test only about cells reachable from the start cell and stops at the first true. A non-empty path leads from the start cell, over free cells and without repetition, to the candidate of least cost that the test added with addGoalCandidate; a test that only answers true always gets the empty path. On a new object without time limit the search ends, returns the empty path exactly if no candidate was added, and has asked about every reachable cell unless the test answered true or, with an oversearch distance, added a candidate. Whatever heuristic the algorithm uses, the path is a cheapest one to its end, and if the test adds exactly the cells of a set and stops at the first, to the whole set; with doubles up to the rounding factor 1 + (w h + 2) / 2^48.",
 "all maps, start poses, options, clocks, heuristics, open-list orders, tests (stateful, any answers) and histories of the object",
 "quantifies over arbitrary stateful callbacks, maps and histories",
 [I+"generic/SearchAlgorithm.hpp: findPath, findPathImp, addGoalCandidate, processNeighbor"])
p("C69","The evaluation tool keeps map, picture and files in step",
 "Whatever mouse and key events the Evaluator gets, after each of them its grid map is occupied exactly where its picture is black and free elsewhere, no assertion fails, and map.ppm holds that picture. Start and goal are in map.yaml whenever no button is down (unless 'f' was pressed while one was), and a new start with the same size and resolution restores picture, map, start and goal. A start with another size or resolution replaces the saved map by a white one. Stopped inside an event, the program finds on restart the state before, the state after, or the new picture with the old poses - except between opening and writing map.yaml: from then on (and after a first start stopped before its text) no start with this size succeeds. A click sets start and goal one map row above the row shown under the mouse (outside the map for the top row); an obstacle box covers the rows shown, one higher on a cell's uppermost pixel row. A maze or filling curve is as wide as the drag at its last mouse move - a click without a move takes the width at which the drag before it was let go.",
 "all sizes, resolutions, disk contents, histories of events and crash points",
 "quantifies over event histories and over every point at which the process may stop",
 ["src/evaluation/evaluator.cpp: mouseCallback, keyCallback, generateMap, saveMap, loadMap, initDefaultMap, invertMap, clearMap, makeMaze, Evaluator", I+"evaluation/evaluator.h: Evaluator", I+"evaluation/Renderer.hpp: fill"])
p("C70","The breadth-first search takes the fewest steps, Dijkstra the cheapest way",
 "A search on the grid without a heuristic and without oversearch that returns a path on a new object returns one whose cost, added up step by step as the program does, is not above that of any path from the start cell to a cell within the goal tolerance - exactly, not up to rounding. For the breadth-first search of the evaluation tool (every step costs the resolution, also a diagonal one) this means the fewest steps, for every resolution between 2^-900 and 2^900 and every map; it ends, and with an empty path only if there is no way. It need not be the shortest way.",
 "all maps, start and goal poses, resolutions, clocks, neighbourhoods and open-list orders among equal costs",
 "quantifies over all maps, all competing paths and all rounding errors",
 [I+"evaluation/evaluator.h: BFSNeighborhood, BreadthFirst",I+"generic/SearchAlgorithm.hpp: findPathImp, processNeighbor",I+"generic/NodeManager.hpp: PriorityQueueManager"])
p("C71","The four-wheel-steering simulator",
 "Whatever calls of step, reset and setNumBots are made: every step moves every robot by exactly 10 cm and turns it by at most 0.4 tan(20 deg) rad, not at all if its front and rear wheels are parallel; all wheels stand at one of the eleven angles -20, -16, ..., 20 degrees; they change at every eleventh step since the last reset (not every tenth) and then depend only on the second in which the step is made. With the wheels held, a robot drives from its second update on along one circle, or straight along its parallel wheels. A pixel of the picture is black exactly if after one of the steps since the last reset a robot stood in it; a pixel is 10 cm wide, but the first row and column take 20 cm. After n steps in all no robot is more than n x 10 cm from the middle, so each is drawn after each of the first 499 steps. reset clears picture and clock, not the robots.",
 "all histories of calls, random sequences and clocks",
 "quantifies over histories of any length and all random sequences",
 ["src/common/path4ws_simulator.cpp: Bot4ws::update, Path4wsSimulator",I+"common/path4ws_simulator.h: Bot4ws, Path4wsSimulator"])
p("C72","The evaluation tool's picture shows every cell at its place",
 "After renderMap every pixel that is not on a line shows the cell it belongs to (Scale x Scale pixels per cell, row 0 at the bottom): occupied and unknown cells in the line colour, free cells in a shade of grey between 100 and 255 that is never lighter for a larger estimate; a new renderer gives the smallest estimate on the map 255 and the largest 100. visualizeSearchSpace paints exactly the cells that have nodes, each in the colour for the distance of its last heading's node; but for every node nearer to the start than 1/10000 of the largest distance - hence for the start of every search - it reads in front of its table of colours. The marker of a start or goal is one pixel too wide and too high, and the points of a path are drawn in the cells below.",
 "all maps, scales, estimates and distances",
 "quantifies over all maps and all pixels",
 [I+"evaluation/Renderer.hpp: MapRenderer::renderMap, fill, findFocus, setFocus, visualizeSearchSpaceGrid, analyze, fillCell",I+"evaluation/Util.hpp: p2cv"])
p("C73","The frames of the evaluation tool's video",
 "render writes the first picture for four seconds, then of the following pictures the first and every k-th, then the last picture for four seconds, where k is the larger of 1 and speed - 1: a video that says 2x is as long as the 1x one, and one that says (k+1)x is k times as fast.",
 "all numbers of pictures, frame rates and speeds",
 "quantifies over searches of any length",
 ["src/evaluation/evaluator.cpp: Evaluator::draw, run, render"])
p("C74","A vehicle search with oversearch, a candidate callback or the caller's own goal test",
 "findPath(from, goal_test): the test is asked about poses that can be driven to from the start, each time with the state it left, and never again after it said stop; the result is a path to the cell and heading slot of an added pose of least weight, drivable as in C59 and C62, and empty exactly if nothing was added; when nodes are handed out in the order of their distance it is a drive that ends in the added pose itself. findPath(from, to) with an oversearch distance: exactly what the neighbourhood accepts is added, with its distance to the goal node (within one cell of the distance to the goal) as weight; once something was added, every call but the last is about a node whose cost is at most the first addition's plus the oversearch distance; the result is as above, or the path for which the callback said that it is enough. An oversearch distance of 0 is the plain search. Both end.",
 "all maps, vehicles, both steering neighbourhoods, heuristics, open lists, goal tests and callbacks (with any state), time limits and oversearch distances",
 "quantifies over all searches and over arbitrary code of the caller",
 [I+"generic/SearchAlgorithm.hpp: findPath, findPathMapPose, findPathImp, addGoalCandidate, hasPoseBeenReached, PoseGoalTest, setPathCandidateCallback"])
p("C75","getPathCandidates after a vehicle search",
 "After a search that returned, getPathCandidates returns one path for each addition to the candidates, those of least weight first; each can be driven from the start and ends in the cell and heading slot of the added pose; without a callback the first is the returned path. For a reversed neighbourhood the candidates are in the order of the search, from the goal to the start, unlike the returned path.",
 "all searches of C74",
 "quantifies over all searches and over arbitrary code of the caller",
 [I+"generic/SearchAlgorithm.hpp: getPathCandidates, backtrack, addGoalCandidate"])
p("C76","An empty result of a vehicle search means that nothing acceptable can be driven to",
 "If findPath(from, to) without a time limit returns the empty path, there is a set of poses that contains the start in both directions (unless its cell is occupied) and which no move of the vehicle along free cells leaves, up to the cell, heading slot and direction of a pose, and none of these poses is accepted by the goal test. The same holds for the poses a caller's goal test was asked about, if it never said stop and the last node was within the oversearch window.",
 "all maps, vehicles, both steering neighbourhoods, heuristics and open lists",
 "quantifies over all searches and all drives of any length",
 [I+"generic/SearchAlgorithm.hpp: findPathImp, processNeighbor, hasPoseBeenReached",I+"generic/DynamicSteeringNeighborhood.h: iterateFreeNeighbors, isGoal",I+"generic/SteeringNeighborhood.hpp: iterateFreeNeighbors, isGoal",I+"generic/MapManager.hpp: isFreeOrUnknown"])
p("C77","What a heuristic that overestimates can cost",
 "A grid search with a heuristic between the straight-line distance and w times it returns a path at most w times as long as any other path to the goal cell: with the taxi distance and 8 neighbours (AStar2dTaxi) at most the square root of two times. With HeuristicL2OverEstimate (power 1.2 of the distance) the length in cells is at most the power 1.2 of the length of any other path. Both hold in the binary64 arithmetic of the code up to a factor of 1 + (w*h + 2) / 2^47, with hypot and pow accurate to two units in the last place, and a path is found iff there is one. Neither returns a shortest path in general.",
 "all maps, start/goal, resolutions between 2^-900 and 2^900, all priority sets that hand out a node of least total cost",
 "a bound relative to all other paths",
 [I+"generic/Heuristics.hpp: HeuristicL1, HeuristicL2OverEstimate",I+"generic/Algorithms.hpp: AStar2dTaxi, AStarOverEstimate",I+"generic/SearchAlgorithm.hpp: findPathImp, processNeighbor"])
p("C78","What the search statistics mean and how much a search does",
 "After findPath on the grid manager, getExpansions is the number of cells handed to the goal test, and getExpansions minus getMultiExpansions the number of different cells among them that had not been expanded since setMap; both do not depend on earlier searches' counters. getTouchedNodes never decreases: it is never reset, not even by setMap, and grows by the number of cells put into the open list. At most one more cell is expanded than was put there, exactly one more if the search ends without accepting a cell. On fresh nodes, with a heuristic that fits the neighbourhood and exact costs, or without heuristic (Dijkstra) in binary64, the cells put into the open list are at most 8 (4) times the different cells expanded, so a search ends within 1 + 8*w*h (1 + 4*w*h) expansions. A cell can still be expanded more than once, even with a consistent heuristic.",
 "all maps, poses, options, histories of the object, open-list policies, runs of any length",
 "counts over complete runs; a bound on the length of every run",
 [I+"generic/SearchAlgorithm.hpp: getExpansions, getMultiExpansions, getTouchedNodes, init, findPathImp, processNeighbor",I+"generic/NodeManager.hpp: PriorityQueueManager"])
p("C79","Oversearch: what getPathCandidates lists and which path is returned",
 "After setMap and findPath with an oversearch distance on a grid search object, whatever it did before, getPathCandidates lists paths of the map from the start to cells accepted by the goal test, each a shortest path to its last cell, those ending nearest the goal first; the first one is the path returned, and the list is empty only if no accepted cell can be reached. Without a time limit every accepted cell whose rated length (length plus heuristic) is within the oversearch distance of all others is listed, and all listed ends but one lie within that distance: the cell on which the search stopped is listed too, so the path returned can lie outside the window, and a path can be listed twice. If the oversearch distance is at least a diagonal step, the goal cell is free and any accepted cell can be reached, the path returned is a shortest path to the goal cell itself. In binary64 the same holds for Dijkstra with the path lengths as the program adds them up.",
 "all maps, poses, oversearch distances, time-outs, open-list and candidate-queue policies, runs of any length",
 "completeness and minimality range over all paths of all maps; the window only shows in complete runs",
 [I+"generic/SearchAlgorithm.hpp: findPath, findPathImp, addGoalCandidate, backtrack, getPathCandidates",I+"generic/Neighborhood.hpp: DirectNeighborhood",I+"generic/Heuristics.hpp"])
p("C80","findPathWithStartConfiguration uses the position and the heading of the node only",
 "On a fresh vehicle search, findPathWithStartConfiguration(node, goal_test, options) does exactly what findPath(pose, goal_test, options) does for the pose of the node: the same path, the same candidates, the same questions to the goal test. The rest of the configuration the caller hands over (steering angle, gear, depth, ...) has no effect: every path starts from a vehicle standing in the corner of the cell of the node, with its heading and straight wheels. So the guarantees of C74 and C75 (drivable path to a candidate of least weight, completeness, order of the candidates) hold relative to that start.",
 "all nodes, maps, vehicles, both steering neighbourhoods, all goal tests with own state, time-outs, open-list and queue policies, runs of any length",
 "an ignored field can only be seen by comparing all pairs of start nodes",
 [I+"generic/SearchAlgorithm.hpp: findPathWithStartConfiguration, findPathMapNode, initStartNode",I+"generic/Common.hpp: DirectionalNode::getPoses",I+"generic/SteeringNode.hpp"])
p("C81","CurveRenderer shows the map and the curve where they are",
 "draw_map paints one pixel for each cell, row 0 of the map at the bottom: free cells white, the others blue, the darker the higher their value, and nothing else of the picture; two maps of the same size get the same picture exactly if they have the same free cells and the same values elsewhere. If the picture is smaller than the map it writes outside it. draw shows nothing of a curve without result; otherwise the circles and lines of its segments, lines from the start through all poses of the iteration in their order, an arrow at each of these poses and at the goal and the start, in the direction of the heading, each point less than a pixel from its place. A point inside a cell is drawn at the pixel of that cell, a point on the lower edge of a cell at the pixel of the cell below (the lower edge of the map outside the picture); a last segment without poses adds a line to the corner of the picture; the arrows on the trajectory have line thickness 0.",
 "all maps, pictures, curves and iteration states; coordinates up to a billion",
 "pixel-exact for all maps and all poses, which examples cannot cover; truncation errors depend on the coordinates",
 ["src/ReedsShepp/CurveRenderer.cpp: draw_map, draw, draw_arrow",I+"ReedsShepp/CurveRenderer.h: p2cv"])
p("C82","Using a vehicle search object again",
 "setMap makes a vehicle search object new: whatever it was used for before, the next findPath (with a goal pose in another than an occupied cell, or with the caller's own goal test) returns the same path, the same candidates and asks the goal test about the same nodes as on a new object; with an occupied goal the path is empty. Without setMap it is not: once a search looked at a node beyond its start, every later search from the same pose on the same object, whatever its goal, goal test, callback, oversearch or time limit, looks only at the two start nodes and returns a path of at most one pose (or throws); so a search that found a path of two or more poses does not find it a second time. getPathCandidates after a call gives the paths of that call, and none if the call threw before its search began; after another setMap it reads nodes that do not exist any more.",
 "all maps, vehicles, neighbourhoods, open lists, heuristics that are not negative (total cost: the distance, with or without heuristic), and all sequences of requests from one pose with goals in other cells",
 "histories of calls on one object are unbounded; what a second call sees depends on everything the first one left in the nodes",
 [I+"generic/SearchAlgorithm.hpp: setMap, findPath, init, initStartPose, initGoalPose, findPathImp, processNeighbor, getPathCandidates",I+"generic/MapManager.hpp: DynamicDirectionalStateSpaceManager::setMap"])
p("C83","Paths and termination on a vehicle search object with any history",
 "Whatever a vehicle search object was used for before (maps, calls with any poses, goal tests, callbacks, time limits, oversearch distances, calls that threw or were cut off): a path that a call returns can be driven from a free pose in the start cell (its exact position is that of an earlier search, its heading the one asked for) through free cells without visiting a slot twice; its last pose passes the goal test of the neighbourhood (what the test sees as the pose before it is right, except for a path of one pose), or, with an oversearch, is in the slot of the best pose that was added; with the caller's own test likewise; getPathCandidates gives one such path for each addition, the best first. What is added is at the goal with its distance as weight. Every call ends, with a path (possibly empty) or with an exception, and this only if a pose has no node or some drive enters row or column -32; a goal test that accepts its first pose always gets a path.",
 "all histories of calls and maps on one object, all maps, vehicles, neighbourhoods, heuristics, open lists, goal tests, callbacks and time limits",
 "a later search meets distances, marks, predecessors and poses that any number of earlier searches left in the nodes",
 [I+"generic/SearchAlgorithm.hpp: findPath, init, initStartPose, initGoalPose, findPathImp, processNeighbor, backtrack, getPathCandidates",I+"generic/MapManager.hpp: DynamicDirectionalStateSpaceManager"])
p("C84","Using a grid search object again without setMap",
 "After setMap (or construction) findPath may be called any number of times on a grid search object with the direct neighbourhood, with any poses, options, time limits and outcomes in between. Every call with both poses in the map ends and returns a path or the empty path; it never dereferences NULL or fails an assertion, time limit or not. But the nodes are not reset: once a call from a free start cell has expanded it (its goal was not within the tolerance of the start, or was occupied, and time was left), every later call from that cell returns the empty path, whatever its goal outside the tolerance, its options and the calls in between, although there may be a way, until setMap is called.",
 "all histories of calls on one object, all maps, poses, goals, options, clocks, open lists and heuristics, exact and binary64 costs",
 "a later search meets distances, marks and predecessors that any number of earlier searches left in the nodes",
 [I+"generic/SearchAlgorithm.hpp: findPath, init, initStartPose, initGoalPose, findPathImp, processNeighbor, backtrack",I+"generic/MapManager.hpp: GridMapManager",I+"generic/DirectNeighborhood.hpp"])
p("C85","Cell to point with floats",
 "cell2point(x, y, float&, float&) of SimpleGridMap2d gives finite floats that differ from the centre of the cell by at most 1/16000000 of the distance of the cell from the zero of the coordinates (plus one cell). On a map within four million cells of that zero the point lies strictly inside the cell and point2cell takes it back to the same cell. On maps farther away (5 cm cells with a UTM origin) the point may lie in another cell, although the double overload gives a point of the right cell.",
 "all maps of ordinary size and resolution (2^-100 to 2^30 per cell), all origins, all cells; IEEE binary64 and binary32 arithmetic",
 "the float rounding depends on the magnitudes of origin, resolution and index, which samples do not cover",
 [I+"common/SimpleGridMap2d.h: cell2point (float), point2cell"])
open("/verif/properties.jsonl","w").write("".join(json.dumps(x)+"\n" for x in P))
print(len(P))
