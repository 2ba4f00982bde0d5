<minimc>
<general>
  <particles>neutron</particles>
  <histories>4</histories>
  <threads>1</threads>
  <chunksize>1</chunksize>
</general>
<nuclides>
  <multigroup groups="1">
    <nuclide name="absorber">
      <neutron>
        <capture>1</capture>
      </neutron>
    </nuclide>
  </multigroup>
</nuclides>
<materials>
  <material name="thin" aden="0.000001">
    <nuclide name="absorber" afrac="1"/>
  </material>
</materials>
<surfaces>
  <planex name="left" x="0"/>
  <planex name="middle" x="1"/>
  <planex name="right" x="2"/>
</surfaces>
<cells>
  <cell name="left slab" material="thin">
    <surface name="left" sense="+1"/>
    <surface name="middle" sense="-1"/>
  </cell>
  <cell name="right slab" material="thin">
    <surface name="middle" sense="+1"/>
    <surface name="right" sense="-1"/>
  </cell>
  <void>
    <surface name="left" sense="-1"/>
  </void>
  <void>
    <surface name="right" sense="+1"/>
  </void>
</cells>
<problemtype>
  <fixedsource>
    <position>
      <constant x="1.5" y="0" z="0"/>
    </position>
    <direction>
      <constant x="-1" y="0" z="0"/>
    </direction>
    <energy>
      <constant energy="1"/>
    </energy>
    <particletype>
      <constant type="neutron"/>
    </particletype>
  </fixedsource>
</problemtype>
<estimators>
  <current name="at the left plane" surface="left"/>
  <current name="at the middle plane" surface="middle"/>
  <current name="at the right plane" surface="right"/>
</estimators>
</minimc>
