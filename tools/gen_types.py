#!/usr/bin/env python3
"""Write rocq/theories/Types.v from attribute_type.rs, element_type.rs and default_value of attribute_value.rs."""
import re
A = open('/repo/src/attribute_type.rs').read()
E = open('/repo/src/element_type.rs').read()
V = open('/repo/src/attribute_value.rs').read()
def line(s, i): return s.count('\n', 0, i) + 1
out = ['(* Generated by tools/gen_types.py from /repo/src/attribute_type.rs, element_type.rs and',
       '   attribute_value.rs.  Do not edit. *)',
       'From Coq Require Import List Bool NArith ZArith String.',
       'From Coq Require Import SpecFloat.',
       'From Verif Require Import Base Ids Data NodeApi.',
       'Import ListNotations.', 'Open Scope string_scope.', '']
def match_def(name, ty, pre, ids, cite):
    out.append('(* %s. *)' % cite)
    out.append('Definition %s (id : %s) : bool :=' % (name, ty))
    out.append('  match id with')
    out.append('  | ' + '\n  | '.join(pre + i for i in ids) + ' => true')
    out.append('  | _ => false')
    out.append('  end.')
    out.append('')
m = re.search(r'fn is_non_inheritable\(id: AttributeId\) -> bool \{(.*?)\n\}', A, re.S)
match_def('is_non_inheritable', 'aid', 'A_', re.findall(r'AttributeId::(\w+)', m.group(1)),
          'is_non_inheritable, attribute_type.rs:%d-%d' % (line(A, m.start()), line(A, m.end())))
impl = A.index('impl AttributeType for AttributeId')
names = []
for m in re.finditer(r'    fn (is_\w+)\(&self\) -> bool \{(.*?)\n    \}', A[impl:], re.S):
    s, e = line(A, impl + m.start()), line(A, impl + m.end())
    names.append(m.group(1))
    if m.group(1) == 'is_inheritable':
        assert re.sub(r'\s+', ' ', m.group(2)).strip() == \
            'if self.is_presentation() { !is_non_inheritable(*self) } else { false }'
        out += ['(* AttributeId::is_inheritable, attribute_type.rs:%d-%d. *)' % (s, e),
                'Definition is_inheritable (id : aid) : bool :=',
                '  if is_presentation id then negb (is_non_inheritable id) else false.', '']
    else:
        match_def(m.group(1), 'aid', 'A_', re.findall(r'AttributeId::(\w+)', m.group(2)),
                  'AttributeId::%s, attribute_type.rs:%d-%d' % (m.group(1), s, e))
s = line(A, A.index('macro_rules! is_func'))
out += ['(* The same functions for Attribute, attribute_type.rs:%d-%d; id() is attribute.rs:51-56. *)' % (s, line(A, impl)-2),
        'Definition of_attr (f : aid -> bool) (a : attr) : bool :=',
        '  match a_name a with QId id => f id | QName _ => false end.', '']
for n in names:
    out.append('Definition attr_%s (a : attr) : bool := of_attr %s a.' % (n, n))
out.append('')
impl = E.index('impl ElementType for Node')
enames = []
for m in re.finditer(r'is_func!\((is_\w+),(.*?)\);', E[impl:], re.S):
    enames.append(m.group(1))
    match_def('eid_' + m.group(1), 'eid', 'E_', re.findall(r'ElementId::(\w+)', m.group(2)),
              'ElementType::%s, element_type.rs:%d-%d' % (m.group(1), line(E, impl + m.start()), line(E, impl + m.end())))
s = line(E, E.index('macro_rules! is_func'))
out += ['(* The macro is_func, element_type.rs:%d-%d. *)' % (s, line(E, impl)-2),
        'Definition of_node (f : eid -> bool) (D : dom) (n : nid) : bool :=',
        '  match tag_id D n with Some id => f id | None => false end.', '']
for n in enames:
    out.append('Definition node_%s (D : dom) (n : nid) : bool := of_node eid_%s D n.' % (n, n))
out.append('')
i = V.index('pub fn default_value'); j = V.index('impl WriteBuffer for AttributeValue')
body = V[i:j]; body = body[body.index('match id {') + len('match id {'):]
f64 = {'1.0': '(S754_finite false 4503599627370496%positive (-52)%Z)', '0.0': '(S754_zero false)',
       '4.0': '(S754_finite false 4503599627370496%positive (-50)%Z)'}
def val(x):
    x = x.strip().rstrip(',')
    if x == 'Some(AttributeValue::None)': return 'VNone'
    x = re.fullmatch(r'some!\((.*)\)', x).group(1)
    if x.startswith('"'): return '(VString (lit %s))' % x
    if x == 'Color::black()': return '(VColor (mkColor 0 0 0)%N)'
    if x == 'Color::white()': return '(VColor (mkColor 255 255 255)%N)'
    m = re.fullmatch(r'\((\S+), LengthUnit::None\)', x)
    if m: return '(VLength (mkLength %s UNone))' % f64[m.group(1)]
    return '(VNumber %s)' % f64[x]
out.append('(* AttributeValue::default_value, attribute_value.rs:%d-%d.  The From instances are those of' % (line(V, i), line(V, i + len(V[i:j].rstrip())) - 1))
out.append('   attribute_value.rs:50-113. *)')
out.append('Definition default_value (id : aid) : option avalue :=')
out.append('  match id with')
for m in re.finditer(r'((?:\s*\|?\s*AttributeId::\w+)+)\s*=>\s*(.*)', body):
    ids = re.findall(r'AttributeId::(\w+)', m.group(1))
    out.append('  | ' + ' | '.join('A_' + x for x in ids) + ' => Some ' + val(m.group(2)))
out.append('  | _ => None')
out.append('  end.')
open('/verif/rocq/theories/Types.v', 'w').write('\n'.join(out) + '\n')
print(names, enames)
