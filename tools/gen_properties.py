"""Generates /verif/properties.jsonl (one JSON object per line)."""
import json, os
I = "diffsync/__init__.py"; H = "diffsync/helpers.py"; D = "diffsync/diff.py"; E = "diffsync/enum.py"
S = "diffsync/store/__init__.py"; L = "diffsync/store/local.py"; R = "diffsync/store/redis.py"; U = "diffsync/utils.py"
P = []
def p(title, statement, quantifier, why, anchors):
    P.append(dict(id="C%02d" % (len(P) + 1), title=title, statement=statement, quantifier=quantifier,
                  why_tests_cant=why, anchors=anchors))

# ---- Diff / DiffElement -------------------------------------------------------------------------
p("Action of a diff element",
  "A DiffElement's action is 'create' exactly when it has source attributes and no dest attributes, 'delete' exactly when it has dest and no source attributes, 'update' exactly when it has both and at least one attribute present on both sides compares unequal, and None otherwise; attributes present on one side only never cause an update.",
  "every pair of optional attribute dictionaries, with any keys and values",
  "attribute dictionaries are unbounded; tests sample a few literal dicts",
  [f"{D}:DiffElement.action", f"{D}:DiffElement.get_attrs_keys", f"{D}:DiffElement.has_diffs"])
p("Attribute diffs are exactly the differing shared attributes, and applying them closes the gap",
  "For an element with both sides present, get_attrs_diffs()['+'] and ['-'] have the same keys, namely exactly the keys present on both sides whose values compare unequal, with the source value under '+' and the dest value under '-'; writing the '+' values over the dest attributes leaves no shared attribute unequal and touches no other attribute. With one side only, that side is reported whole.",
  "every pair of attribute dictionaries",
  "needs all key sets and value combinations, including partially overlapping schemas",
  [f"{D}:DiffElement.get_attrs_diffs", f"{D}:DiffElement.get_attrs_keys", f"{I}:DiffSyncModel.update_base"])
p("All ways of asking 'are there differences' agree",
  "For every Diff, has_diffs() is True iff some element at some depth has a non-None action iff summary() has a non-zero create, update or delete count iff dict() is non-empty iff str() is not '(no diffs)'.",
  "every diff tree of any depth and width, any ordering hook that yields every child",
  "diff trees are unbounded; the answers are computed by five separate recursive functions",
  [f"{D}:Diff.has_diffs", f"{D}:Diff.summary", f"{D}:Diff.dict", f"{D}:Diff.str", f"{D}:DiffElement.has_diffs"])
p("len(diff) counts every element once and agrees with summary",
  "len(diff) is the number of DiffElements in the tree and equals summary()'s create + update + delete + no-change.",
  "every diff tree, any ordering hook that yields every child once",
  "unbounded trees",
  [f"{D}:Diff.__len__", f"{D}:DiffElement.__len__", f"{D}:Diff.summary", f"{D}:DiffElement.summary"])
p("The skip count of a computed diff is never negative and counts exactly the skipped models",
  "For a diff returned by diff_from/diff_to, summary()['skip'] is non-negative and is exactly the number of models counted as processed during the calculation that are not represented in any element.",
  "all pairs of adapters, flags, child graphs (including duplicated child references)",
  "the count is a subtraction over a whole recursive traversal; any mis-count on some shape makes it negative",
  [f"{D}:Diff.summary", f"{H}:DiffSyncDiffer.incr_models_processed", f"{H}:DiffSyncDiffer.diff_object_list"])
p("Elements of a diff are unique per parent, type and name",
  "Adding a second element with the same type and name to a Diff raises ObjectAlreadyExists and leaves the diff unchanged; adding any other element appends it and leaves the existing ones unchanged; the same holds for the children of an element; therefore no diff produced by diff_from/diff_to ever holds two siblings with the same type and name.",
  "every sequence of additions, every computed diff, at every depth",
  "needs every history of additions and every pair of adapters",
  [f"{D}:Diff.add", f"{D}:DiffElement.add_child", f"{H}:DiffSyncDiffer.calculate_diffs"])
# ---- diff calculation ---------------------------------------------------------------------------
p("An adapter never differs from itself",
  "diff_from/diff_to of an adapter against itself, or against another adapter holding the same objects, reports has_diffs() False whenever it returns (values must compare equal to themselves: a float NaN attribute does not).",
  "every adapter content, every child graph, all flags",
  "tests check fixed datasets only",
  [f"{H}:DiffSyncDiffer.calculate_diffs", f"{I}:Adapter.diff_from", f"{I}:Adapter.diff_to"])
p("Computing a diff is read-only",
  "diff_from/diff_to never change any stored object, never add or remove an object of either adapter and call no create/update/delete hook, whether it returns or raises; the only effect on a LocalStore is that looked-up model names become known (empty) model names.",
  "all adapters, both store back ends, all flags, all outcomes",
  "a test compares a few snapshots; the claim is over all states and all exceptions",
  [f"{H}:DiffSyncDiffer", f"{L}:LocalStore.get_all", f"{L}:LocalStore.get_by_uids"])
p("A diff lists exactly the objects reachable on either side, classified correctly",
  "With no flags, the elements of a returned diff are, at every level, exactly one per unique id present among the source's or the destination's objects at that position; the element carries source attributes iff the source has it and dest attributes iff the destination has it, and these are the objects' current attributes.",
  "all pairs of adapters and child graphs",
  "completeness at unbounded depth and width",
  [f"{H}:DiffSyncDiffer.diff_object_list", f"{H}:DiffSyncDiffer.diff_object_pair", f"{H}:DiffSyncDiffer.diff_child_objects"])
p("Global SKIP_UNMATCHED flags remove exactly the unmatched elements",
  "With SKIP_UNMATCHED_SRC no element of the diff, at any depth, is a create; with SKIP_UNMATCHED_DST none is a delete; and in either case the diff is otherwise the unflagged diff: every element that survives has the same keys and attributes, and every element that is matched under matched parents survives.",
  "all adapters, all flag combinations",
  "must hold at every depth and for every flag combination",
  [f"{H}:DiffSyncDiffer.diff_object_pair", f"{E}:DiffSyncFlags"])
p("IGNORE and per-model SKIP_UNMATCHED flags suppress the object and its whole subtree in the diff",
  "An object carrying IGNORE on either side, a source-only object carrying SKIP_UNMATCHED_SRC and a destination-only object carrying SKIP_UNMATCHED_DST produce no element at that position; flags on other objects do not remove an element.",
  "all adapters and flag values (any bit combination)",
  "flags combine in 2^5 ways per object over unbounded datasets",
  [f"{H}:DiffSyncDiffer.diff_object_pair", f"{E}:DiffSyncModelFlags"])
p("diff_to and diff_from are mirror images",
  "With no flags and model classes shared by both adapters, swapping source and destination yields a diff with the same elements with source and dest attributes exchanged (creates become deletes, updates stay updates), up to the order of siblings.",
  "all pairs of adapters over the same model classes",
  "a recursive relation between two runs over unbounded data",
  [f"{I}:Adapter.diff_to", f"{I}:Adapter.diff_from", f"{H}:DiffSyncDiffer"])
p("Only genuinely corresponding objects are ever paired",
  "Every element of a returned diff that has both sides compares two objects with equal type, equal short name and equal identifiers; if two objects at the same position share a unique id but differ in one of these, the diff raises (TypeError or ValueError) instead of returning.",
  "all pairs of adapters, including colliding unique ids",
  "collisions are rare in hand-written data",
  [f"{H}:DiffSyncDiffer.validate_objects_for_diff"])
p("Diff calculation terminates on every acyclic child graph",
  "If the child references of both adapters contain no cycle, the diff calculation never exceeds a recursion depth equal to the longest child chain, so with enough stack it returns or raises one of the documented errors; on a cycle of existing objects it cannot return.",
  "all child graphs of any depth",
  "unbounded depth; cycles",
  [f"{H}:DiffSyncDiffer.diff_child_objects"])
p("Diff progress callbacks",
  "The 'current' value passed to the callback during a diff strictly increases from call to call, 'total' never changes and equals the number of stored objects on both sides at the start, and the last value equals the diff's processed count; current never exceeds total when each object is reached once, and equals it when in addition everything stored is reachable and nothing is skipped.",
  "all adapters, flags, child graphs",
  "a claim about a whole sequence of calls",
  [f"{H}:DiffSyncDiffer.incr_models_processed", f"{H}:DiffSyncDiffer.__init__"])
p("Which types are compared, and in which order",
  "Only types in both adapters' top_level are compared at the top; groups appear in the destination's top_level order, and within a list source objects come first in source order followed by destination-only objects in destination order.",
  "all adapters and top_level lists",
  "ordering claims over unbounded lists",
  [f"{H}:DiffSyncDiffer.calculate_diffs", f"{U}:intersection", f"{U}:symmetric_difference"])
p("Fields outside identifiers, attributes and children never influence a diff",
  "Changing the values of fields that are listed neither in _identifiers, _shortname, _attributes nor _children (and the status and status message) on any objects leaves the returned diff unchanged.",
  "all pairs of adapters that agree on the listed fields and flags",
  "a two-run (non-interference) property over all states",
  [f"{I}:DiffSyncModel.get_attrs", f"{I}:DiffSyncModel.get_identifiers", f"{H}:DiffSyncDiffer"])
# ---- model --------------------------------------------------------------------------------------
p("Unique ids identify objects",
  "Two objects of one class have the same unique id only if their identifier values render to the same strings. (True when no rendered identifier contains '__' or begins or ends with '_'; false in general because the separator is not escaped.)",
  "all identifier tuples",
  "collisions need adversarial values",
  [f"{I}:DiffSyncModel.create_unique_id", f"{I}:DiffSyncModel.get_unique_id"])
p("Model class declarations are validated",
  "A DiffSyncModel subclass declaration is accepted exactly when every name in _identifiers, _shortname, _attributes and _children refers to an existing field (or class attribute for identifiers) and no field is in two of identifiers, attributes and children; an Adapter subclass is accepted exactly when each model attribute's name equals the model's type and each top_level name is a model attribute.",
  "all class declarations",
  "unbounded declarations",
  [f"{I}:DiffSyncModel.__pydantic_init_subclass__", f"{I}:Adapter.__init_subclass__"])
p("Child references: add_child and remove_child",
  "add_child appends the child's unique id to the field declared for its type and changes nothing else; it raises for an undeclared type or an already listed child and then changes nothing; remove_child removes it, raises when absent, and undoes add_child exactly; a child list built by these calls never holds a duplicate.",
  "all objects and all sequences of add_child/remove_child calls",
  "needs all histories",
  [f"{I}:DiffSyncModel.add_child", f"{I}:DiffSyncModel.remove_child"])
# ---- stores -------------------------------------------------------------------------------------
p("LocalStore is a map from (type, unique id) to object",
  "After any sequence of add/update/remove calls (successful or failing), get of (type, uid) returns exactly the object most recently added or put under that key and not removed since, and raises ObjectNotFound otherwise; get_or_none returns None in that case.",
  "every history of store operations on any objects",
  "all histories",
  [f"{L}:LocalStore.add", f"{L}:LocalStore.get", f"{L}:LocalStore.update", f"{L}:LocalStore.remove_item", f"{S}:BaseStore.remove", f"{I}:Adapter.get_or_none"])
p("add is idempotent for the same object and refuses a different one",
  "Adding an object already stored (the same Python object) changes nothing and returns; adding a different object with the same type and unique id raises ObjectAlreadyExists and changes nothing; after a successful add the object is retrievable and no other key changes.",
  "all store states and objects",
  "identity versus equality over all states",
  [f"{L}:LocalStore.add"])
p("remove(remove_children=True) removes exactly the object and its stored descendants, and always terminates",
  "It removes the object, then exactly the stored objects reachable from it through child references, leaves every other object stored, tolerates dangling references and terminates even when child references form a cycle.",
  "all store states and child graphs, including shared and cyclic children",
  "graph reachability over unbounded graphs",
  [f"{S}:BaseStore.remove", f"{L}:LocalStore.remove_item"])
p("count, len, get_all and get_all_model_names agree",
  "count() is the sum over model names of count(model), count(model) is the number of objects returned by get_all(model), len(adapter) is count(), every stored object's type is among get_all_model_names(), and get_all lists objects in order of insertion.",
  "every store state reachable by store operations",
  "all histories",
  [f"{L}:LocalStore.count", f"{L}:LocalStore.get_all", f"{L}:LocalStore.get_all_model_names", f"{I}:Adapter.__len__"])
p("get_by_uids is ordered and all-or-nothing",
  "get_by_uids returns, in the order requested, exactly the objects get would return for each uid, and raises ObjectNotFound iff some requested uid is absent.",
  "all store states, all uid lists including repeats",
  "unbounded lists",
  [f"{L}:LocalStore.get_by_uids", f"{R}:RedisStore.get_by_uids"])
p("get_or_* and update_or_* conveniences",
  "get_or_instantiate / get_or_add_model_instance return the stored object and created=False, changing nothing, when the key is present, and otherwise store the new object and return it with created=True; update_or_instantiate / update_or_add_model_instance leave the stored object at that key with every given attribute equal to the given value, created iff it was absent, all other objects unchanged (LocalStore).",
  "all store states, ids and attrs",
  "all states",
  [f"{S}:BaseStore.get_or_instantiate", f"{S}:BaseStore.get_or_add_model_instance", f"{S}:BaseStore.update_or_instantiate", f"{S}:BaseStore.update_or_add_model_instance"])
p("A removed object no longer points at its adapter",
  "After remove(obj), obj.adapter is None. (Refuted: removing an adapter's last object leaves obj.adapter set, because an empty adapter is falsy.)",
  "all store states",
  "tests never look at the adapter field after removing the last object",
  [f"{S}:BaseStore.remove", f"{I}:Adapter.__len__"])
p("RedisStore behaves as the same map, and stores with different ids are isolated",
  "With model names and store ids free of ':' and glob characters, RedisStore get/add/update/remove/get_all/count() behave as a map from (type, uid) to object snapshots, and operations on one store id never change what another store id returns. Without that restriction keys collide.",
  "all histories over a shared Redis server, all uids (including ones containing ':')",
  "key encoding collisions; all histories",
  [f"{R}:RedisStore._get_key_for_object", f"{R}:RedisStore.add", f"{R}:RedisStore.get", f"{R}:RedisStore.get_all", f"{R}:RedisStore.remove_item", f"{R}:RedisStore.get_all_model_names"])
p("count(model) agrees between back ends",
  "RedisStore.count(model) equals len(get_all(model)), as on LocalStore. (Refuted for model names containing upper-case letters; true for lower-case ones.) In any case count and get_all consider exactly the keys that match their pattern.",
  "all model names and store contents",
  "tests only use lower-case model names",
  [f"{R}:RedisStore.count", f"{L}:LocalStore.count"])
p("Changes made through the store API are durable on every back end",
  "After update_or_instantiate / update_or_add_model_instance the values read back by get equal the given ones, and after a sync the receiving adapter read back shows the synchronized data, whatever the store back end. (Refuted for RedisStore: objects are mutated after being pickled and never written back.)",
  "all back ends and operations",
  "tests for redis do not read back after a sync of updates",
  [f"{S}:BaseStore.update_or_instantiate", f"{R}:RedisStore.get", f"{H}:DiffSyncSyncer.sync_model"])
p("Concurrent adds to a shared RedisStore",
  "Of two workers adding different objects with the same type and uid to one store id, at least one gets ObjectAlreadyExists. (Refuted: get-then-set is not atomic; true if the two calls do not overlap.)",
  "all interleavings of the Redis commands of two add calls",
  "interleavings",
  [f"{R}:RedisStore.add"])
# ---- sync ---------------------------------------------------------------------------------------
p("A successful sync converges",
  "If every hook succeeds and changes no attribute beyond what it is told, the objects of each adapter form a forest, shared children have the same parent on both sides and model classes correspond, then sync_from/sync_to returns without raising and a following diff with the same flags has no diffs.",
  "all such pairs of adapters of any size and depth, all hooks that succeed (they may write other fields), all flags, all ordering hooks that yield every element",
  "unbounded states; interaction of create/update/delete with parents' child lists",
  [f"{I}:Adapter.sync_from", f"{H}:DiffSyncSyncer.sync_diff_element", f"{H}:DiffSyncSyncer.sync_model", f"{H}:DiffSyncDiffer"])
p("Syncing twice is syncing once",
  "Under the same conditions a second sync calls no create/update/delete hook, does not call sync_complete and leaves all stored data unchanged.",
  "all such pairs of adapters",
  "unbounded states",
  [f"{I}:Adapter.sync_from", f"{H}:DiffSyncSyncer.perform_sync"])
p("The source adapter is never modified by a sync",
  "Whatever the hooks do (return None, raise), whether the sync completes or raises, every object stored in the source adapter and its set of objects is unchanged; likewise for every other adapter sharing no objects or Redis keys with the destination.",
  "all adapters not sharing Python objects, all diffs, hooks and failure points",
  "all failure points",
  [f"{H}:DiffSyncSyncer.sync_diff_element"])
p("A sync only touches destination objects named in the diff",
  "Destination objects whose (type, uid) does not occur in the diff and that are not descendants of a deleted SKIP_CHILDREN_ON_DELETE object keep all their field values, flags and membership in the store.",
  "all diffs (computed or hand-made), hooks and failure points",
  "frame property over all states and outcomes",
  [f"{H}:DiffSyncSyncer.sync_diff_element"])
p("Hook calls are exactly those the diff prescribes, in pre-order, once each",
  "When all hooks succeed, the create/update/delete calls made by a sync are exactly one per element with an action, with the element's keys and '+' attributes, parents before children in the diff's child order (except where NATURAL_DELETION_ORDER or SKIP_CHILDREN_ON_DELETE say otherwise).",
  "all diffs and adapters",
  "a claim about complete call sequences on unbounded trees",
  [f"{H}:DiffSyncSyncer.sync_diff_element", f"{H}:DiffSyncSyncer.perform_sync", f"{D}:Diff.get_children"])
p("Deletion order and cascade flags",
  "Deleting an object flagged NATURAL_DELETION_ORDER calls delete on all its child elements before itself; without the flag, after itself; deleting an object flagged SKIP_CHILDREN_ON_DELETE calls delete on none of its children but removes all its stored descendants from the adapter.",
  "all deletion subtrees, all flag combinations",
  "unbounded subtrees",
  [f"{H}:DiffSyncSyncer.sync_diff_element", f"{E}:DiffSyncModelFlags"])
p("CONTINUE_ON_FAILURE contains failures",
  "With CONTINUE_ON_FAILURE, a CRUD exception raised by a hook never escapes the sync; the failing object and its subtree are skipped (no hook is called below it) and every other element is processed exactly as if the failing subtree had not been in the diff.",
  "all diffs, any set of failing hooks",
  "any subset of an unbounded set of elements may fail",
  [f"{H}:DiffSyncSyncer.sync_model", f"{E}:DiffSyncFlags"])
p("Without CONTINUE_ON_FAILURE the first hook exception aborts the sync",
  "The exception propagates to the caller unchanged, no further hook is called, and sync_complete is not called; exceptions other than CRUD exceptions propagate even with the flag.",
  "all diffs, all failure points",
  "all failure points",
  [f"{H}:DiffSyncSyncer.sync_model", f"{I}:Adapter.sync_from"])
p("The destination store is consistent at every failure point",
  "At whatever hook call a sync fails, the destination store still maps each key to an object with that type and unique id, holds no object twice, and no child list has gained a reference to an object that was not stored.",
  "all failure points, all diffs, all hooks",
  "crash points",
  [f"{H}:DiffSyncSyncer.sync_diff_element", f"{I}:DiffSyncModel.add_child"])
p("Retrying after a failed sync converges",
  "After a sync aborted or partially failed at any point, a new sync whose hooks all succeed leaves no diffs. (Refuted in general: objects orphaned by an aborted parent deletion make a later create of the same key fail.)",
  "all failure points and retries",
  "crash points followed by recovery",
  [f"{H}:DiffSyncSyncer.sync_diff_element", f"{H}:DiffSyncSyncer.sync_model"])
p("sync_complete is called exactly when something was attempted",
  "A sync that returns calls sync_complete exactly once iff the diff contains an element with an action that was processed, after all hooks; a sync of a diff without differences calls no hook and changes no field, flag or membership.",
  "all diffs and adapters",
  "the boolean is accumulated through recursion and overwritten on one path",
  [f"{I}:Adapter.sync_from", f"{H}:DiffSyncSyncer.perform_sync", f"{H}:DiffSyncSyncer.sync_diff_element"])
p("A supplied diff is used as given",
  "sync_from/sync_to with diff=d performs d's changes and never computes a new diff; a diff of the wrong class raises DiffClassMismatch, and an element of a type unknown to the destination AttributeError. (Refuted for an empty diff, which is falsy: a new diff is computed and applied and the class is not checked.)",
  "all diffs, adapters and flags",
  "tests only pass non-empty diffs",
  [f"{I}:Adapter.sync_from", f"{D}:Diff.__len__"])
p("Skip flags protect the destination during sync",
  "sync with SKIP_UNMATCHED_SRC calls no create hook and adds no object to the destination; with SKIP_UNMATCHED_DST it calls no delete hook and removes no object from the destination.",
  "all adapters, hooks, outcomes",
  "all states and failure points",
  [f"{H}:DiffSyncSyncer", f"{H}:DiffSyncDiffer.diff_object_pair", f"{E}:DiffSyncFlags"])
p("An IGNOREd destination object is not changed by a sync",
  "A destination object carrying IGNORE keeps its data and stays stored. (Refuted when an ancestor flagged SKIP_CHILDREN_ON_DELETE is deleted; proved when it is not below such an ancestor.)",
  "all adapters with forest-shaped data",
  "interaction between two flags at a distance",
  [f"{E}:DiffSyncModelFlags", f"{S}:BaseStore.remove", f"{H}:DiffSyncSyncer.sync_diff_element"])
p("Sync progress callbacks",
  "The 'current' value passed to the callback during a sync increases by one per call and never exceeds 'total', which equals len(diff); it reaches total when every hook succeeds and nothing is skipped. (Refuted for SKIP_CHILDREN_ON_DELETE deletions, which are never counted.)",
  "all diffs and outcomes",
  "call sequences",
  [f"{H}:DiffSyncSyncer.incr_elements_processed", f"{H}:DiffSyncSyncer.sync_diff_element"])
p("Status log records name the object they are about",
  "Every status log record of a sync carries the action, type and unique id of the element whose hook just ran, with the level, status and message of the object it returned, of a failure if it returned None, of an error if it raised. (Refuted under NATURAL_DELETION_ORDER: the parent's record carries the last child's context.)",
  "all diffs",
  "shared mutable state clobbered by recursion",
  [f"{H}:DiffSyncSyncer.sync_diff_element", f"{H}:DiffSyncSyncer.log_sync_status"])
p("Moving a child to another parent",
  "If a child has a different parent in source and destination, a sync leaves it under the source's parent. (Refuted: when the new parent is processed first the create fails because the object still exists.)",
  "all adapters",
  "depends on the processing order of unbounded data",
  [f"{H}:DiffSyncSyncer.sync_model"])
p("Children of models with different child field names or child types",
  "Two models with the same child type stored under different field names can be diffed and synced, and only child types common to both models are synchronized. (Refuted: the source's field name is used on the destination object; and a created parent syncs child types the destination model does not have.)",
  "all pairs of model classes",
  "schema combinations",
  [f"{H}:DiffSyncDiffer.diff_child_objects", f"{I}:DiffSyncModel.add_child"])
p("sync_to is sync_from with the roles exchanged, as is diff_to",
  "a.sync_to(b, ...) has exactly the effect and result of b.sync_from(a, ...), and a.diff_to(b, ...) of b.diff_from(a, ...).",
  "all adapters and arguments",
  "two-run equality over all states",
  [f"{I}:Adapter.sync_to", f"{I}:Adapter.diff_to"])
# ---- serialization and traversal ----------------------------------------------------------------
p("dict / load_from_dict round trip",
  "Loading adapter.dict() into an empty adapter of the same class reproduces every stored object whose type the adapter class declares: same keys, same children and flags, and field values that compare equal. dict() has an entry for each stored object and no other, with all fields, children and flags, or with exclude_defaults exactly those that do not equal the default.",
  "all adapter contents and default values",
  "unbounded contents; defaults elision",
  [f"{I}:Adapter.dict", f"{I}:Adapter.load_from_dict", f"{I}:Adapter._get_initial_value_order"])
p("Tree traversal is complete",
  "get_tree_traversal(as_dict=True) contains every model attribute of the adapter, and for each model every child type appears directly under it at some place; the text rendering has one line per node plus the root.",
  "all adapter classes",
  "unbounded class graphs",
  [f"{I}:Adapter.get_tree_traversal", f"{U}:get_path", f"{U}:set_key", f"{U}:tree_string"])
p("get_path finds a key iff it is there",
  "get_path returns None iff the key occurs nowhere in the nested dictionary, and otherwise a path of keys that can be followed from the root and ends with the key; set_key makes its path followable and removes no existing path.",
  "all nested dictionaries",
  "unbounded nesting",
  [f"{U}:get_path", f"{U}:set_key"])

# ---- what diffs depend on -----------------------------------------------------------------------
p("Diffs do not depend on the storage back end",
  "Adapters holding the same entries (type, unique id, identifiers, attributes, children, flags) give the same diff, or the same error, whether the entries are in a LocalStore or on a Redis server, in any combination.",
  "all contents, both stores on both sides",
  "two-run equality across back ends",
  [f"{H}:DiffSyncDiffer.calculate_diffs", f"{L}:LocalStore", f"{R}:RedisStore"])
p("Diffs do not depend on insertion order",
  "Adding objects, children or top-level types in another order changes nothing in a diff but the order of sibling elements; in particular summary, skip count and has_diffs are the same.",
  "all contents and permutations",
  "two-run property over all permutations at all depths",
  [f"{H}:DiffSyncDiffer.calculate_diffs", f"{H}:DiffSyncDiffer.diff_object_list"])
p("Having no differences is transitive",
  "If A has no differences to B and B none to C, then A has none to C (shared classes, no flags, comparable types declared by B).",
  "all triples of adapters",
  "relational property of three runs",
  [f"{H}:DiffSyncDiffer.calculate_diffs", f"{D}:DiffElement.action"])

# ---- base methods, copies ------------------------------------------------------------------------
p("create, update and delete do exactly what their documentation says",
  "create builds an object of the class with the given identifiers and attributes, defaults elsewhere and no children, or fails when a name is given twice or a required field is missing; update sets the given fields and nothing else, stopping with an error at the first unknown one; delete changes only the status.",
  "all classes, objects and dictionaries of values",
  "frame conditions: what is not changed, for all fields",
  [f"{I}:DiffSyncModel.create_base", f"{I}:DiffSyncModel.update_base", f"{I}:DiffSyncModel.delete_base"])
p("After a synchronisation the destination is a copy of the source",
  "When no flag leaves anything out, both adapters have the same top-level types and every object of the source is reachable from a top-level one, the destination ends with exactly the objects of the source: same unique ids, identifiers, attributes and children, and the same count. False for unreachable objects of the source and for top-level types the source does not have.",
  "all pairs of adapters under the stated conditions",
  "relates the final state to the source for all contents and depths",
  [f"{H}:DiffSyncSyncer.perform_sync", f"{H}:DiffSyncSyncer.sync_diff_element", f"{I}:Adapter.sync_from"])

# ---- presentations of a diff ---------------------------------------------------------------------
p("dict() of a diff shows exactly the differences",
  "The values in Diff.dict() are exactly the differing attributes of the elements, source values below '+' and destination values below '-' under the path of the element; an element is present exactly if it or one below it differs, with '+' ('-') exactly if it exists in the source (destination). False when a child type is named '+' or '-'.",
  "all diffs",
  "quantifies over all nested paths; completeness and soundness",
  [f"{D}:Diff.dict", f"{D}:DiffElement.dict", f"{D}:DiffElement.get_attrs_diffs"])
p("str() of a diff is the report of all changed elements",
  "Diff.str() lists, two spaces per level, every type with changed elements, below it each changed element with where it is missing, its differing attributes with both values, and the same for its children; '(no diffs)' exactly if nothing differs.",
  "all diffs and indentations",
  "exact text for all trees",
  [f"{D}:Diff.str", f"{D}:DiffElement.str"])
p("Diff elements are ordered by type and name",
  "Between siblings of a diff exactly one of < and > holds, <= and >= agree with them, < is transitive and sorting has one result. Elements are equal iff type, name, keys and attributes are; <= means < or equal, >= means not <, and > neither < nor equal. False for elements of different diffs: elements of the same type and name are greater than each other when their attributes differ, and equal when only their children differ.",
  "all diffs and pairs of elements",
  "order laws quantify over all triples",
  [f"{D}:DiffElement.__lt__", f"{D}:DiffElement.__eq__"])

# ---- reporting ------------------------------------------------------------------------------------
p("Progress callbacks and the logging of unchanged records do not influence the result",
  "Diffing and synchronising with and without a progress callback, and with and without LOG_UNCHANGED_RECORDS, give the same diff or error and afterwards the same objects, stores, hook calls and log records apart from the debug ones.",
  "all worlds, flags, diffs and hooks that do not look at callbacks and debug records",
  "a two-run property over all programs of hooks",
  [f"{H}:DiffSyncSyncer.log_sync_status", f"{H}:DiffSyncSyncer.incr_elements_processed", f"{H}:DiffSyncDiffer.incr_models_processed"])

# ---- outcome of a synchronisation -----------------------------------------------------------------
p("A synchronisation leaves in the destination exactly what the diff says",
  "Afterwards the object of an element to create is stored and new, with the identifiers and attributes of the element and defaults elsewhere, except in fields that hooks write; that of an element to update, or without action, is the same object with the differing attributes set and the others unchanged; that of an element to delete is gone. Their children are those they had without the deleted and with the created ones. Nothing else is stored than these and the objects the diff does not concern, which are unchanged.",
  "all pairs of adapters under the conditions of convergence, all diffs computed for them",
  "exact final state for all trees, classes and orders",
  [f"{H}:DiffSyncSyncer.sync_diff_element", f"{H}:DiffSyncSyncer.sync_model", f"{I}:DiffSyncModel.create", f"{I}:DiffSyncModel.update"])
p("The order in which a diff is applied does not matter",
  "Applying diffs with the same elements but other ordering methods, hooks that succeed, flags or callbacks leaves the same objects in the destination: same keys, classes, flags and field values (except of fields that hooks write), and the same children up to their order.",
  "all pairs of adapters under the conditions of convergence, all orders",
  "compares two runs for all permutations",
  [f"{D}:Diff.get_children", f"{D}:Diff.order_children_default", f"{H}:DiffSyncSyncer.perform_sync"])

# ---- text, accessors, names -----------------------------------------------------------------------
p("str() of a model or adapter shows exactly the objects below it",
  "DiffSyncModel.str and Adapter.str return one line per object reachable through the child lists, indented two levels below its parent, one per child field, one per listed child that cannot be found, and nothing else; they return given enough stack and change nothing that is stored. False for an object added to a second adapter, whose children are looked up in the first, and for objects that are below themselves, for which no stack suffices.",
  "all worlds, objects, depths and indents",
  "trees of any depth and any missing children",
  [f"{I}:DiffSyncModel.str", f"{I}:Adapter.str"])
p("Identifiers, attributes and names of a model are those of its declared fields",
  "get_identifiers and get_attrs hold exactly the declared fields with their values and share none; unique id and short name join the declared fields in order; creating an object from the identifiers and attributes of another gives the same identifiers, attributes and unique id. The last is false if a field that is neither is required.",
  "all classes and objects",
  "all combinations of declarations, defaults and values",
  [f"{I}:DiffSyncModel.get_identifiers", f"{I}:DiffSyncModel.get_attrs", f"{I}:DiffSyncModel.get_shortname", f"{I}:DiffSyncModel.create_base"])
p("Names of adapters and objects",
  "The type of an adapter is the declared one, else its class's name; its name the given one if not empty, else its type; str() is the type, followed by the quoted name where it differs. repr() of an object is its type and quoted unique id, which tells objects apart if no type has a quote in its name. False: str() tells adapters with different types and names apart.",
  "all adapters, objects and arguments",
  "all strings",
  [f"{I}:Adapter.__init__", f"{I}:Adapter.__str__", f"{I}:Adapter.__repr__", f"{I}:DiffSyncModel.__repr__"])

# ---- several processes ----------------------------------------------------------------------------
p("Processes that use different Redis stores do not influence each other",
  "However the Redis commands of any number of processes with different store ids are interleaved, each call returns what it returns when its process runs alone, each process leaves the entries of its stores as it would alone, and other entries stay; diff_from and sync_from included. Every interleaving ends.",
  "all numbers of processes, histories of calls of all store methods, diff_from and sync_from, servers and interleavings",
  "interleavings cannot be enumerated",
  [f"{R}:RedisStore.add", f"{R}:RedisStore.remove_item", f"{R}:RedisStore.get_all", f"{R}:RedisStore._get_object_from_redis_key"])
p("Processes that share a Redis store",
  "Concurrent additions of objects that agree where they have the same key all succeed, and each key holds one of them. False for other calls: two removals of one object may both succeed, get_all fails with ObjectNotFound when an object is removed meanwhile, and get_or_instantiate may raise ObjectAlreadyExists.",
  "all numbers of processes, servers and interleavings",
  "interleavings cannot be enumerated",
  [f"{R}:RedisStore.add", f"{R}:RedisStore.remove_item", f"{R}:RedisStore.get_all", f"{S}:BaseStore.get_or_instantiate"])

# ---- Redis destinations ---------------------------------------------------------------------------
p("What a synchronisation leaves in a RedisStore",
  "After a successful synchronisation into a RedisStore, the entries of deleted elements are gone, those of created ones hold a new object with the attributes of the element and without children, and everything else on the server, updated objects and the child lists of parents included, is as before. So it is false that the destination can then be compared, or synchronised again: a child list may name a deleted object, and the children of a created object are created once more.",
  "all sources, hooks that succeed, diffs in which no key is created and deleted, orders and servers",
  "all diffs of any depth; the effect is on a server that the tests fake",
  [f"{H}:DiffSyncSyncer.sync_diff_element", f"{R}:RedisStore.add", f"{R}:RedisStore.remove_item", f"{R}:RedisStore._get_object_from_redis_key"])

p("Calls on a RedisStore that are cut short",
  "If the connection or the process fails between two commands of a call, the server is left as before the call or as after it; a remove(remove_children=True) has removed some of what it was to remove and changed nothing else; a history of calls leaves it as after a number of them or inside such a removal or a synchronisation. add and update can be repeated and then have the outcome of an uninterrupted call. False: a removal that was cut short can be completed by repeating it (the object goes before its children, and the call is then refused); an object with NaN can be added again.",
  "all calls and histories of calls of all store methods, all servers, all points of interruption",
  "every call can be cut at every command; the tests run against a fake server that never fails",
  [f"{R}:RedisStore.add", f"{R}:RedisStore.update", f"{R}:RedisStore.remove_item", f"{S}:BaseStore.remove"])

# ---- failing hooks --------------------------------------------------------------------------------
p("What a synchronisation leaves when hooks fail",
  "Each element of the diff was carried out, or its hook failed and it was given up with everything below it, which is then as before, or (if the synchronisation raised) it was not its turn any more and everything from it down is as before. An element that is given up is neither created nor deleted; a failed update has set all attributes or none. Objects list as children those they had, less those deleted, with those created. Only an exception raised by a hook is raised, and no ObjectCrudException with CONTINUE_ON_FAILURE. Objects the diff does not concern are as before.",
  "all adapters that satisfy the conditions of C32, hooks that fail at any calls, flags, orders and diffs",
  "every subset of hook calls may fail, on diffs of any depth",
  [f"{H}:DiffSyncSyncer.sync_diff_element", f"{H}:DiffSyncSyncer.sync_model", f"{H}:DiffSyncSyncer.perform_sync"])
p("A synchronisation can be repeated after failures",
  "However many synchronisations from one adapter to another are disturbed by create and update hooks that fail, broken off or not, the two can be compared afterwards, and one synchronisation whose hooks succeed makes them agree. False if a child of a deleted object has IGNORE or SKIP_UNMATCHED_DST in its flags (it stays, nobody's child), and for deletions that fail (C41).",
  "all adapters that satisfy the conditions of C32 and have no such flags on children, all numbers of synchronisations, hooks, flags, orders and diff classes",
  "histories of failures of any length",
  [f"{H}:DiffSyncSyncer.sync_diff_element", f"{H}:DiffSyncSyncer.perform_sync", f"{I}:Adapter.sync_from"])
p("Texts of values",
  "repr() of a value is a literal that denotes it, so that different values have different texts, and the line that DiffSyncModel.str writes tells the attributes of the object. str(), which Diff.str uses, tells values apart that are both strings or both none. False: a difference that Diff.str shows can be seen in the text (1 and '1').",
  "all values: numbers of any size, strings with any characters, nested lists and dictionaries",
  "all values",
  [f"{I}:DiffSyncModel.str", f"{D}:DiffElement.str", f"{I}:DiffSyncModel.create_unique_id"])

p("Records that are loaded into two adapters and synchronised",
  "Loading records into an empty adapter as the documentation shows (instantiate, add, add_child) gives an object for each record, with its values and its children in order, and nothing else. Two adapters that were filled in this way satisfy the conditions of C32. Synchronising the second from the first then leaves in it exactly the data of the first's records, and a comparison finds no difference. False: different identifiers are enough to tell two records apart (their unique ids may agree).",
  "all lists of records, classes and trees of any depth whose records are a dataset (parents before children, distinct unique ids, required fields, no NaN) and match between the two sides, all hooks that succeed, orders and callbacks",
  "all data",
  [f"{I}:Adapter.add", f"{I}:DiffSyncModel.add_child", f"{I}:Adapter.sync_from", f"{L}:LocalStore.get", f"{L}:LocalStore.add"])

p("No differences means the same contents",
  "A comparison of two adapters of which nothing is left out finds no difference exactly if they hold the same: objects of the same types and unique ids, with equal identifiers, attributes and children. Equal contents never differ, whatever the flags. False with SKIP_UNMATCHED_BOTH: no difference found means the same contents.",
  "all adapters that satisfy the conditions of C32 and (first sentence) C58, all flags, callbacks and diff classes",
  "all contents; a test only sees some that differ",
  [f"{H}:DiffSyncDiffer.calculate_diffs", f"{D}:Diff.has_diffs", f"{D}:DiffElement.has_diffs", f"{D}:DiffElement.get_attrs_diffs"])
p("Several adapters and a sequence of synchronisations",
  "Several adapters are filled from records and then synchronise from each other, in any order and any number of times. Every call succeeds. At the end each adapter has exactly the data of the records that the sequence of calls leads to: its own at first, after a call those that the source has. Any two adapters can be compared, do not differ if their data has the same origin, and do not differ exactly if they hold the same. False with SKIP_UNMATCHED_DST.",
  "all numbers of adapters, lists of records as in C75, sequences of calls, hooks that succeed, orders and callbacks",
  "sequences of calls of any length between any number of adapters",
  [f"{I}:Adapter.sync_from", f"{I}:Adapter.diff_from", f"{I}:Adapter.add", f"{L}:LocalStore.get_all"])

p("What SKIP_UNMATCHED_SRC and SKIP_UNMATCHED_DST select",
  "After a synchronisation the destination holds what both adapters had, what only the source had unless SKIP_UNMATCHED_SRC is set, and what only the destination had if SKIP_UNMATCHED_DST is set. Objects that the source has too have its values, and children selected in the same way; the others are as before. So nothing is removed with SKIP_UNMATCHED_DST and nothing added with SKIP_UNMATCHED_SRC. False for objects with different parents on the two sides: with both flags they keep their values.",
  "all adapters that satisfy the conditions of C32 and C58, all flags, hooks that succeed, orders, callbacks and diff classes",
  "all contents and all combinations of the flags; the tests look at one small tree",
  [f"{H}:DiffSyncDiffer.diff_object_pair", f"{H}:DiffSyncDiffer.calculate_diffs", f"{H}:DiffSyncSyncer.sync_diff_element", f"{I}:Adapter.sync_from"])

p("Sequences of synchronisations with any flags",
  "Several adapters with the same classes are filled from records and then synchronise from each other in any order, any number of times, with any flags. Every call succeeds, and each adapter ends with exactly the data of the records that result from replacing, at each call, the destination's records by those that the flags select. In particular an adapter that collects from others with SKIP_UNMATCHED_DST ends with an object for each of their records and its own, and all that synchronise from it then hold the same. False: the order in which it collects does not matter.",
  "all numbers of adapters, records and calls, all flags, hooks that succeed, orders, callbacks and diff classes; all records that agree on identifiers and parents",
  "sequences of calls of any length on any data",
  [f"{I}:Adapter.sync_from", f"{I}:Adapter.sync_to", f"{H}:DiffSyncDiffer.diff_object_pair", f"{H}:DiffSyncSyncer.sync_diff_element"])

p("What the flags of the call and of the objects leave out",
  "An object is passed over if the flags of the call, its own or its counterpart's say so (IGNORE, SKIP_UNMATCHED_SRC, SKIP_UNMATCHED_DST), or if its parent is. After a synchronisation the destination holds the objects of the source that are not passed over, with the source's values, and its own that are passed over, as they were; the child lists are composed in the same way. Only what is below an object that is deleted with SKIP_CHILDREN_ON_DELETE is removed all the same. False: an object with IGNORE is never removed.",
  "all adapters that satisfy the conditions of C32 and C58 apart from those on flags, all flags of the call and of every object, hooks that succeed, orders, callbacks and diff classes",
  "all combinations of flags at all places of all trees; the tests set one flag on one object",
  [f"{H}:DiffSyncDiffer.diff_object_pair", f"{H}:DiffSyncDiffer.calculate_diffs", f"{H}:DiffSyncSyncer.sync_diff_element", f"{I}:Adapter.sync_from", f"{I}:Adapter.remove"])

p("Which records an adapter refuses to load",
  "Whether records can be loaded into an empty adapter depends on the records alone: exactly if each has a class and its required fields, no two have the same type and unique id, and each parent is loaded before its child and has children of that type. Otherwise the first record that fails decides the exception. The adapter then holds what the records before it give, and if only its parent is wrong also its own object, which has no parent. False: a record that is refused leaves nothing behind; a record cannot be its own parent.",
  "all lists of records, whose classes may have any fields, identifiers and children",
  "all data sets with an error at any place, and what the adapter holds afterwards",
  [f"{I}:Adapter.add", f"{I}:Adapter.get", f"{I}:DiffSyncModel.add_child", f"{L}:LocalStore.add"])

p("A synchronisation into a RedisStore between its commands",
  "A comparison changes nothing on the server at any point, nor does a synchronisation that comes to no diff. If a synchronisation into a RedisStore is interrupted between any two Redis commands, whatever hooks and flags, then each entry is as it was before the call or as the whole call would have left it, and the latter only if the diff creates it and it was not there or deletes it and it is gone. While the other processes only read, also from the same store, a process gets the results that it gets alone, and what is on the server is at any time what is there at some time when it runs alone. False: a synchronisation that was interrupted can be completed by repeating it; of two processes that synchronise the same source into the same store, which both succeed one after the other, both succeed when they do so at the same time.",
  "all worlds whose destination is a well-formed RedisStore, diffs (given or computed), hooks including those that fail, flags, orders; all points of interruption; all interleavings with all histories of reading calls",
  "an interruption can come between any two of the commands, and the processes' commands can interleave in any way; the tests run one process to its end",
  [f"{H}:DiffSyncSyncer.sync_diff_element", f"{I}:Adapter.sync_from", f"{R}:RedisStore.add", f"{R}:RedisStore.remove_item", f"{R}:RedisStore.get_all"])

p("A server that answers SCAN in any order and with repetitions",
  "Redis may answer SCAN with the keys in any order and with keys repeated. Calls that do not hand on a list of keys (adding, updating, removing, getting, instantiating, a synchronisation with a given diff) come to the same server, memory and replies as if each key was answered once in order of insertion, also when several processes take turns. get_all_model_names gives the same set, get_all the same objects perhaps repeated, count at least the number of objects and zero only if there are none. A diff has the same elements up to the order of siblings, the same counts and the same has_diffs; it fails exactly if it fails otherwise. A synchronisation computes such a diff and does with it what it does with any. False: count, get_all and the number of models left out of a diff do not depend on the server's answers.",
  "all worlds and servers, all answers to each SCAN that list exactly the matching keys; for diffs adapters with entries under their own keys",
  "the order and the repetitions of SCAN depend on the server's hash tables and cannot be chosen in a test",
  [f"{R}:RedisStore.get_all", f"{R}:RedisStore.get_all_model_names", f"{R}:RedisStore.count", f"{H}:DiffSyncDiffer.calculate_diffs", f"{I}:Adapter.sync_from"])

p("What is written to the console",
  "In a fresh interpreter enable_console_logging(n) writes, in order and to stderr, warnings and errors (n = 0), also information (n = 1), all records (n >= 2); without it all records are printed to stdout. Only its first call has an effect on the level, and none after initialize_logging, from which on the handler's level decides and the file gets all records. If a synchronisation returns and nothing is shown at verbosity 0, then each call that the diff asks for was made, in its order, none was left out, and each returned its object with status SUCCESS. If all hooks succeed, nothing is shown but records of children that are not there when they are removed with their parent, nothing at all if no object is deleted with its children. The exception formatter is used exactly before structlog 21.2 or if neither rich nor better_exceptions is there. False: a higher verbosity shows no less; the last call of enable_console_logging decides; a synchronisation that raises is not silent.",
  "all configurations of the root logger, verbosities, lists of events; for synchronisations all worlds with a well-formed destination, diffs, hooks, flags, orders",
  "the tests look at the records of one run with a capturing logger; the configuration of the console is not tested",
  ["diffsync/logging.py:enable_console_logging", "diffsync/logging.py:_structlog_exception_formatter_required", "diffsync/log.py:initialize_logging", f"{H}:DiffSyncSyncer.log_sync_status", f"{H}:DiffSyncSyncer.sync_diff_element"])

p("The construction of a RedisStore",
  "A URL and a host together (and a port other than 0) are refused with ValueError. Otherwise the client is made from the URL if there is one, else from host and port; without both, or if the server cannot be reached or does not answer PING, ObjectStoreException; other exceptions of the client pass. The store's id is the one given or, if none or an empty one is, a new UUID; the keys of its objects begin with diffsync: and the id; str() is its name and its id. An id that is a UUID contains none of the characters that mix up the keys of stores. False: a URL and a host together are always refused.",
  "all arguments, networks and identifiers",
  "the tests construct stores with a handful of combinations of arguments",
  [f"{R}:RedisStore.__init__", f"{R}:RedisStore.__str__", "diffsync/store/__init__.py:BaseStore.__init__"])

p("A RedisStore that is filled from records",
  "Loading records as the documentation shows (instantiate, add, add_child on the parent) into a RedisStore without entries succeeds and leaves one snapshot per record with its values, but none of the snapshots has children: the parent that add_child changes is a copy. With update of the parent after each add_child the snapshots have the children, in the order of the records. Nothing else on the server changes. Any adapter with that store id is then a source for a LocalStore filled from records: the synchronisation succeeds, leaves exactly the data of the records, and the next comparison finds no difference. Loading the records a second time is refused with ObjectAlreadyExists as soon as one of them names a parent, and leaves the server as it is. False: after the documentation's load the synchronisation copies the records.",
  "all lists of records that make a data set, all classes, worlds, contents of the server under other ids, hooks that succeed, diff classes that order in any way; ids and type names without colons and pattern characters",
  "the tests fill RedisStores with two or three objects and no children",
  [f"{R}:RedisStore.add", f"{R}:RedisStore.update", f"{R}:RedisStore.get", f"{R}:RedisStore.get_by_uids", f"{I}:DiffSyncModel.add_child", f"{I}:Adapter.sync_from"])

p("Records that are synchronised into a RedisStore",
  "A RedisStore filled from records, with update of the parents, is the destination of a synchronisation from an adapter filled from others, in a LocalStore or another RedisStore. The synchronisation succeeds. Afterwards the server has, of the records that were only in the source, snapshots with their values and without children; none of those that were only in the destination; and the very snapshots from before of records in both and of everything else. So updates are not written, new records are no children of anything, and the parent of a deleted record, if it is in both, still names it as its child. False: afterwards the server has the data of the source's records.",
  "all pairs of lists of records that make matching data sets, all classes without SKIP_CHILDREN_ON_DELETE, worlds, contents of the server under other ids, hooks that succeed and only set attributes outside the compared ones, diff classes that order in any way; ids and type names without colons and pattern characters",
  "the tests synchronise no records with children into a RedisStore and do not look at the server afterwards",
  [f"{R}:RedisStore.add", f"{R}:RedisStore.get", f"{R}:RedisStore.get_by_uids", f"{R}:RedisStore.remove_item", f"{H}:DiffSyncSyncer.sync_diff_element", f"{I}:Adapter.sync_from"])

p("Records that are loaded with get_or_instantiate or update_or_instantiate",
  "Records may repeat a type and unique id. If the first records of each make a data set, loading them as example 04 does (get_or_instantiate or update_or_instantiate, and add_child on the parent if the object is new) succeeds and leaves exactly one object per type and unique id, with the values and the parent of the first record; with update_or_instantiate each field has, up to equality, the value of the last record that gives it. Loading the same records again with get_or_instantiate changes nothing. Two adapters loaded so synchronise as those loaded from the resulting records do. False: each record is a child of the parent it names; the order of the records does not matter if those of a type and unique id have the same values.",
  "all lists of records whose first ones make a data set and which give all identifiers (for update_or_instantiate: nothing but fields), all classes, worlds, hooks that succeed, diff classes that order in any way",
  "all lists of records with repetitions at any place; the tests call each method once or twice with one object",
  ["diffsync/store/__init__.py:BaseStore.get_or_instantiate", "diffsync/store/__init__.py:BaseStore.update_or_instantiate", f"{I}:Adapter.get_or_instantiate", f"{I}:Adapter.update_or_instantiate", f"{I}:DiffSyncModel.add_child", f"{L}:LocalStore.add"])

p("A remote system behind the hooks",
  "Hooks pass every create, update and delete call on to a remote system which may accept or refuse it, depending on all that happened before; if it accepts they call the base method and return the object, otherwise they do not call it and raise or return None. If the destination and the remote system have the same objects with the same attribute values before a synchronisation, they have after it, whatever was refused and also if the synchronisation was broken off by an ObjectCrudException; likewise after any number of synchronisations from any adapters. If nothing is refused, then afterwards the remote system has exactly the source's objects with equal attributes: the hook calls carry over all data. False: so too if hooks call the base method before the call is refused; so too for objects with SKIP_CHILDREN_ON_DELETE, whose children are removed without a call.",
  "all remote systems, refusals, worlds, adapters, diffs (computed or given) that set no identifiers and give all attributes, classes, diff classes, flags, numbers of attempts; for the last true sentence adapters that can be compared completely",
  "which calls are refused and the state left by a failed attempt vary without bound; the tests use hooks that do nothing besides and look at the local adapter only",
  [f"{H}:DiffSyncSyncer.sync_diff_element", f"{H}:DiffSyncSyncer.sync_model", f"{I}:DiffSyncModel.create", f"{I}:DiffSyncModel.update", f"{I}:DiffSyncModel.delete", f"{I}:Adapter.sync_from"])

p("The JSON text of a model",
  "The text that json() gives is JSON, on a single line: a reader of JSON finds the value that was written, with null in place of NaN, so that values without NaN that have the same text are the same. Instantiating the class with the members read from a model's text gives the model again: the same type, unique id, child lists and flags, and every field with the same or an equal value; so models of a class with the same text are copies of one model. False: so too if a field is NaN.",
  "all values (strings with any bytes, integers of any size, lists and dicts of any depth), all classes whose fields, child fields and model_flags have distinct names, all models whose identifiers, if equal to their default, are rendered as it is",
  "strings with quotes, backslashes and control characters, nested values and values equal to defaults occur in any combination; the tests compare two texts without any of these",
  [f"{I}:DiffSyncModel.json", f"{I}:DiffSyncModel.dict"])

p("User code that does anything during a synchronisation",
  "create(), update(), delete(), the progress callback and sync_complete() are arbitrary programs: they may change or remove any object, use any adapter and raise anything. Whatever they do, the hooks are called in the order of the diff, each for an element that asks for it and with the element's identifiers and values, at most once per element, and below an element only if it needs no call or its own was made, or before its deletion in natural order; a LocalStore does not have the object that is to be created and has the one to be updated at the time of the call. The callback gets the numbers from 1 on without gaps and the size of the diff, which they do not exceed. No call follows one that raised, and its exception is the result, except for an ObjectCrudException of a hook with CONTINUE_ON_FAILURE. sync_complete is called at most once, after all others, if a hook was called and nothing failed before. If the user code leaves other adapters alone then so does the synchronisation. With user code as assumed elsewhere, and a diff of fewer levels than the recursion limit, this is the synchronisation of the other properties. False: all this for given diffs with other elements than deletions below a deletion (a deletion may turn into an update).",
  "all programs as hooks, callbacks and sync_complete, worlds, diffs (computed, or given with only deletions below deletions), classes, flags, diff classes, recursion limits; callbacks during the calculation of the diff return without effect",
  "arbitrary interference of user code at every call; tests use hooks and callbacks that only record",
  [f"{H}:DiffSyncSyncer.perform_sync", f"{H}:DiffSyncSyncer.sync_diff_element", f"{H}:DiffSyncSyncer.sync_model", f"{H}:DiffSyncSyncer.incr_elements_processed", f"{I}:Adapter.sync_from", f"{I}:Adapter.sync_complete"])

p("User code that does anything while a diff is calculated",
  "The progress callback and Diff.complete() are arbitrary programs: they may change or remove any object, use any adapter and raise anything. The calculation itself changes nothing: the world at the end is that of the start after the calls of user code. The first exception of user code is the last call and the result. The callback gets growing numbers and the number of objects stored at the start; complete() comes last and at most once, its diff has at most as many elements as the last number, and what it leaves is the result. Each element shows its two objects as they were at the one moment when the callback was called for them, at which they were not flagged to be left out; they were taken from the two adapters. Below a creation are creations only, below a deletion deletions. If user code only reads, calls and result are those of the plain calculation, up to its first exception. A synchronisation with such a diff calls the hooks as C91 says. False: the diff is that of the adapters at some moment.",
  "all programs as callbacks and complete(), worlds, classes, flags, diff classes, recursion limits; for the reading case, worlds with valid references",
  "arbitrary interference of user code at every call; tests use callbacks that only record numbers",
  [f"{H}:DiffSyncDiffer.calculate_diffs", f"{H}:DiffSyncDiffer.incr_models_processed", f"{H}:DiffSyncDiffer.diff_object_list", f"{H}:DiffSyncDiffer.diff_object_pair", f"{H}:DiffSyncDiffer.diff_child_objects", f"{I}:Adapter.diff_from"])

p("Synchronising again while hooks write attributes",
  "Hooks may write fields besides what sync writes. After a synchronisation whose hooks succeed the diff has no creations and deletions, and the two sides of its elements differ in no attribute but those that hooks write. After a second one (with whatever hooks) only attributes that update hooks write can differ: what create and delete hooks wrote has been repaired; and so it stays however often one synchronises. If update hooks write no attribute the adapters agree after two synchronisations, and a third calls no hook. False: this for update hooks that write attributes: after any number of synchronisations the diff still has differences.",
  "all worlds with two LocalStores whose classes fit (forests, no dangling or shared children), hooks that succeed and write any fields, flags, diff classes, numbers of synchronisations; for the second and later ones no child flagged IGNORE or SKIP_UNMATCHED_DST",
  "all hooks and sequences of synchronisations; tests synchronise twice with the default hooks",
  [f"{I}:Adapter.sync_from", f"{H}:DiffSyncSyncer.sync_model", f"{H}:DiffSyncSyncer.sync_diff_element", f"{D}:DiffElement.action", f"{I}:DiffSyncModel.update", f"{I}:DiffSyncModel.create"])

p("Adapters that are edited between synchronisations",
  "Several adapters start empty. Objects are added to them and to their parents, attributes of stored objects are assigned, objects are taken off their parents and removed with everything below them, and the adapters are synchronised from each other with any flags, in any order and any number of times. No step fails, and at the end each adapter has exactly the data that the same changes lead to on plain lists of records. After a synchronisation without flags that skip objects the two adapters hold the same, however both were edited; an assigned value has arrived, and a removed object and everything below it, and nothing else, is gone. False: this if objects are removed without taking them off their parents, or identifiers are assigned.",
  "all numbers of adapters with LocalStores and the same classes, sequences of changes of which each can be made, records with proper values that name their parents, hooks that succeed and spare attributes, flags, diff classes, recursion limits above the depth",
  "unbounded sequences in which edits and synchronisations alternate; tests edit once before one synchronisation",
  [f"{I}:Adapter.add", f"{I}:Adapter.get", f"{I}:Adapter.remove", f"{I}:Adapter.sync_from", f"{I}:DiffSyncModel.add_child", f"{I}:DiffSyncModel.remove_child"])

p("Edits between synchronisations that fail",
  "Several adapters start empty. They are edited, synchronised, and synchronised with create and update hooks that may raise, return None or do half of their work, within try/except, in any order and any number of times. Whatever breaks off a synchronisation, every later step works, and at the end each adapter has exactly the data of a consistent list of records: after a failed synchronisation each record of the destination is one of the source's or one of those it had, none that both have is missing, and with the skip flags nothing is lost or new. An adapter that is never a destination has what its edits give it. One synchronisation that succeeds then makes its two adapters agree. False: this if deletions may fail: an object may stay behind without its parent.",
  "all numbers of adapters with LocalStores and the same classes without flags, sequences of edits and attempts of which each can be made whatever became of the others, hooks that are honest, spare attributes and delete properly, flags, diff classes, recursion limits above the depth",
  "unbounded sequences of edits and failures at arbitrary points; tests let one hook fail once",
  [f"{I}:Adapter.sync_from", f"{H}:DiffSyncSyncer.sync_model", f"{H}:DiffSyncSyncer.sync_diff_element", f"{I}:Adapter.add", f"{I}:Adapter.remove", f"{I}:DiffSyncModel.add_child"])

p("RedisStores that are edited between synchronisations",
  "Several adapters, with LocalStores or with RedisStores on one server, some with the same store id, start empty. Objects are added, assigned to and removed, and update() is called for every object that was changed, because what a RedisStore returns is a copy; in between adapters with LocalStores are synchronised from any of the others with any flags. No step fails. At the end each LocalStore has exactly the data that the same changes lead to on plain lists of records, each RedisStore has exactly one entry per record, with its values and children and no adapter, adapters with the same store id have the same, and no other entry of the server has changed. After a synchronisation without flags that skip objects the destination has the data that the source's store has; a value assigned through another adapter of that store has arrived. False: the same without update(): the synchronisation succeeds and leaves the old value.",
  "all numbers of adapters with the same classes, sequences of changes of which each can be made, store ids and type names without a colon or pattern characters, records with proper values that name their parents, hooks that succeed and spare attributes, flags, diff classes, recursion limits above the depth",
  "unbounded sequences of edits through several adapters on one store; tests use one RedisStore, one object and no synchronisation",
  ["diffsync/store/redis.py:RedisStore.update", "diffsync/store/redis.py:RedisStore.get", "diffsync/store/redis.py:RedisStore.add", "diffsync/store/redis.py:RedisStore.remove_item", "diffsync/store/__init__.py:BaseStore.remove", f"{I}:Adapter.sync_from", f"{I}:DiffSyncModel.remove_child"])

p("Adapters that only grow become the same",
  "Several adapters start empty. Objects are added to them, and they are synchronised from each other with SKIP_UNMATCHED_DST, in any order and any number of times; records of the same object have equal attributes. No step fails. At the end each adapter has exactly the data of the records that were added to it or that have come to it through any chain of synchronisations, each of which took place when its source already had them. Adapters that know of the same objects hold the same, whatever the order and the ways in which they learned of them, also in different histories. When every record has come to every adapter all hold the same, and further synchronisations among them change none of it. False: this if records of one object disagree; then two adapters may differ although everything has come to both.",
  "all numbers of adapters with LocalStores and the same classes, sequences of additions and such synchronisations of which each can be made, records with proper values that name their parents, hooks that succeed and spare attributes, other flags, diff classes, recursion limits above the depth",
  "unbounded histories and pairs of them; tests synchronise two adapters once",
  [f"{I}:Adapter.sync_from", f"{I}:Adapter.add", f"{E}:DiffSyncFlags", f"{H}:DiffSyncDiffer.diff_object_list", f"{H}:DiffSyncSyncer.sync_diff_element", f"{I}:DiffSyncModel.add_child"])

p("The tree of types shows each type where it is declared",
  "Everything the tree of an adapter's types shows is declared: it starts with a type of the adapter and goes on with child types. If no type is a child of two, no child type is top-level and the name of a child type comes after that of its parent unless this is top-level, then the tree shows exactly the lines of descent from the types that are nobody's children, each type at one place. Otherwise a child type may be shown at the top too, and its children only there. The text of the tree can be read back: trees of one-line names with the same text are the same.",
  "all lists of top-level names and sets of classes with any declared children; all nested dictionaries of one-line names",
  "unbounded sets of classes and depths, and injectivity; tests compare the text of a few fixed adapters",
  [f"{I}:Adapter.get_tree_traversal", f"{I}:Adapter._get_initial_value_order", f"{U}:get_path", f"{U}:set_key", f"{U}:tree_string", f"{U}:_tree"])

p("The summary of a diff foretells the synchronisation",
  "Whatever the hooks do and however a synchronisation ends, create, update and delete are each called at most as often as summary() of the applied diff counts such elements. If the hooks succeed and no deleted object is marked SKIP_CHILDREN_ON_DELETE they are called exactly as often, and the number of objects in the destination grows by the number to create less the number to delete. With that flag delete is called less often; if a child of such an object is ignored, more objects go than the summary says.",
  "all adapters, diffs (given ones delete whole subtrees), diff classes, flags, callbacks, hooks; all outcomes including exceptions",
  "unbounded trees and arbitrary hooks; tests compare the counts of one fixed diff and never count the calls",
  [f"{D}:Diff.summary", f"{D}:DiffElement.summary", f"{H}:DiffSyncSyncer.sync_diff_element", f"{H}:DiffSyncSyncer.sync_model", f"{I}:Adapter.sync_from", f"{I}:Adapter.count"])

p("The construction of adapters, and stores that adapters share",
  "As long as no adapter is given a LocalStore that already has one, adapters behave as if the store were a part of them. Adapters that were given the same store answer and do the same for every call, for ever; a call changes no adapter and no other store. A store's adapter is the last one it was given to, and an object without an adapter gets that one, through whichever adapter it is added. The keyword arguments are recorded in order, each as a copy or, if copying ends with TypeError or AttributeError, as itself. A construction that fails changes nothing; exactly which fail. An object may so belong to another adapter than the one it was added through, and a lookup by identifiers stop working once the store was given to another adapter.",
  "all histories of constructions of stores and adapters, and of calls through them",
  "unbounded histories of sharing; tests give a store instance to one adapter",
  [f"{I}:Adapter.__new__", f"{I}:Adapter.__init__", f"{S}:BaseStore._get_object_class_and_model", f"{S}:BaseStore.remove", f"{L}:LocalStore.add", f"{L}:LocalStore.get", f"{L}:LocalStore.update", f"{L}:LocalStore.count"])

p("A diff that is applied in parts",
  "Splitting a diff into non-empty parts and giving them to sync_from one after the other has the effect of giving it the whole: the same world, hook calls, log records and exception, at the same point. Only the progress that is reported and the number of calls of sync_complete differ. An empty part, however, counts as no diff, so that all differences are calculated and applied.",
  "all worlds, diffs, splittings, orders, flags and hooks that take no notice of progress and sync_complete; all outcomes including exceptions",
  "unbounded diffs, all splittings and all points of failure; tests apply whole diffs",
  [f"{I}:Adapter.sync_from", f"{H}:DiffSyncSyncer.perform_sync", f"{H}:DiffSyncSyncer.sync_diff_element", f"{D}:Diff.get_children", f"{D}:Diff.__len__"])

p("Adapters that share nothing never come to share anything",
  "If no object is stored in two adapters and no Redis key can belong to two, then this is still so after any sequence of additions and updates of new objects, edits and removals of stored ones, comparisons and synchronisations, however each of them ends. Hence an adapter to which none of this is done stays as it was however often it serves as a source, and what a synchronised adapter holds it held before or was made new: objects of the source are never taken over. A program that adds an object of one adapter to another loses this.",
  "all worlds with valid references, numbers of adapters, stores, histories, diffs, flags and hooks",
  "unbounded histories over any number of adapters, with exceptions at any point; tests synchronise two adapters once or twice",
  [f"{I}:Adapter.sync_from", f"{I}:Adapter.add", f"{I}:Adapter.update", f"{I}:Adapter.remove", f"{H}:DiffSyncSyncer.sync_diff_element", f"{I}:DiffSyncModel.create_base"])

p("Redis commands that fail",
  "If commands to the Redis server fail during any call (the command is lost, or only its reply), the first failure is the last command of the call, its exception is raised, and the server is as after that many commands of the undisturbed call. So a call other than a removal with children or a synchronisation did everything or nothing to the server, a comparison nothing, and a synchronisation left each entry as it was or as the whole call leaves it; additions and updates can be tried again. A removal with children cannot; and an exception that is diffsync's own ObjectNotFound would be taken for the absence of an object.",
  "all calls of stores and adapters including sync_from, memories, servers, and patterns of failing commands; all exceptions of the client",
  "all positions of the failure in runs of any length, and lost replies; tests use a server that always answers",
  [f"{R}:RedisStore", f"{S}:BaseStore.remove", f"{H}:DiffSyncDiffer", f"{H}:DiffSyncSyncer.sync_diff_element", f"{I}:Adapter.get_or_none"])

p("An adapter that is synchronised with itself or with its equal",
  "If source and destination hold the same objects (one adapter, or two adapters on one RedisStore id, or equal contents), a synchronisation calls no hook and not sync_complete, and changes nothing but statuses, whatever the hooks, the flags and the end of the call. False for an attribute that is not equal to itself (NaN).",
  "all worlds in which attribute values equal themselves; all stores, hooks, flags, diff classes and recursion limits",
  "arbitrary hooks that would fail if called; tests never synchronise an adapter with itself",
  [f"{I}:Adapter.sync_from", f"{H}:DiffSyncSyncer.sync_diff_element", f"{D}:DiffElement.action"])

p("How many Redis commands a call sends",
  "A call on a RedisStore sends at most a fixed number of commands: add 2, update 1, get 1, get_by_uids one per id, remove without children 3, the or-calls 3; get_all one per listed key and one; remove with children 3 and 4 per named child; a synchronisation with a given diff 5 per element. False for the last if an object that is read has SKIP_CHILDREN_ON_DELETE.",
  "all worlds, calls, hooks, flags and diffs; all replies of the server at each command, so all interleavings with other processes and all points at which the call is cut short",
  "the replies are arbitrary and independent of each other, which no test with a server can produce",
  [f"{R}:RedisStore", f"{S}:BaseStore.remove", f"{H}:DiffSyncSyncer.sync_diff_element"])

p("How many Redis commands a comparison sends",
  "diff_from sends one SCAN per adapter on Redis, at most one per top-level type and adapter, one GET per key these list and one per child named by an object that was read; a synchronisation without a given diff adds at most 5 per element of the diff it computes. False in terms of the objects on the server: a child named twice is read twice.",
  "all worlds with one class per type, all stores of the other adapter, flags, recursion limits and hooks; all replies of the server at each command and all points at which the call is cut short",
  "the replies are arbitrary and independent of each other, which no test with a server can produce",
  [f"{I}:Adapter.diff_from", f"{I}:Adapter.sync_from", f"{H}:DiffSyncDiffer.calculate_diffs", f"{H}:DiffSyncDiffer.diff_child_objects", f"{R}:RedisStore.get_all"])

p("Deleting in natural order costs no more commands",
  "With NATURAL_DELETION_ORDER a synchronisation still sends at most 5 Redis commands per element, if everything below a deletion in its diff is a deletion and no object read has SKIP_CHILDREN_ON_DELETE; every computed diff is like that whatever the server replied. False for a diff put together otherwise: the syncer's action is overwritten by a child that is not a deletion, the object is then not deleted, and its children are visited twice at each level: 2^(k+2)-2 commands for k+1 elements, so that no number of commands per element is enough.",
  "all worlds, hooks, flags, diffs and stores of the source; all replies of the server at each command and all points at which the call is cut short",
  "needs a diff of some depth with the flag at each level, and replies that change between the commands",
  [f"{H}:DiffSyncSyncer.sync_diff_element", f"{H}:DiffSyncSyncer.perform_sync", f"{H}:DiffSyncDiffer.diff_object_pair", f"{I}:Adapter.sync_from"])

out = os.path.join(os.path.dirname(os.path.abspath(__file__)), "..", "properties.jsonl")
with open(out, "w") as f:
    for x in P:
        f.write(json.dumps(x) + "\n")
print(len(P))
